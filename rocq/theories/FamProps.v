(** Property C53: predicates of classes and their extension in subclasses. *)
From Coq Require Import Bool Arith List NArith Lia Permutation.
From Verif Require Import NamesModel ClsModel ClsSpec UnitModel UnitSpec FamModel FamSpec FamProofs.
Import ListNotations.
Local Open Scope nat_scope.

(** Example programs: object, NoneType, A, B(A), C(B), D(A), with predicate 4 in the given
    classes. *)
Definition mk (s : option (cid * list texpr)) : cls :=
  {| c_super := s; c_nvars := 0; c_functions := []; c_methods := []; c_static := []; c_subs := [] |}.
Definition tab : table := fun c =>
  match c with
  | 0 => mk None
  | 3 => mk (Some (2, []))
  | 4 => mk (Some (3, []))
  | 5 => mk (Some (2, []))
  | _ => mk (Some (0, []))
  end.
Definition build (with_pred : list cid) (abstract : list cid) : prog := {|
  p_modules := [ {| md_global := true; md_classes := [0; 1]; md_functions := []; md_methods := []; md_predicates := [];
                    md_vars := []; md_ops := [] |};
                 {| md_global := false; md_classes := [2; 3; 4; 5]; md_functions := []; md_methods := []; md_predicates := [];
                    md_vars := []; md_ops := [] |} ];
  p_tb := tab;
  p_preds := fun c => if mem c with_pred then [4] else [];
  p_props := fun _ => [];
  p_adt := fun _ => false;
  p_classmethod := fun _ => false;
  p_cname := fun c => 8 + c;
  p_src := fun _ => [];
  p_info := fun o _ => {| m_interface := false; m_inline := false;
                          m_declared := match o with OClass c => mem c abstract | _ => false end;
                          m_normal := true; m_imported := false |};
  p_init := 0;
  p_taken := [];
  p_ignore := false |}.

Lemma build_some l a c : some_class (build l a) c <-> c <= 5.
Proof.
  split.
  - intros [i [m [Hm Hc]]]. unfold module_at in Hm. cbn in Hm.
    destruct i as [|[|i]]; cbn in Hm; [| |destruct i; discriminate]; injection Hm as <-; cbn in Hc; lia.
  - intros H. destruct c as [|[|c]]; [eexists 0, _; split; [reflexivity | cbn; auto]..|].
    eexists 1, _; split; [reflexivity|]. cbn. destruct c as [|[|[|[|c]]]]; auto. lia.
Qed.
Lemma build_wf l a : wf_prog 6 (build l a).
Proof.
  constructor.
  - constructor; [lia | split; reflexivity | split; reflexivity |].
    intros c H. destruct c as [|[|[|[|[|[|c]]]]]]; [lia| | | | | |lia]; eexists _, _; split; try reflexivity; split; try lia; split; try reflexivity; constructor.
  - intros c H. apply build_some in H. lia.
  - intros c p H Hs. apply build_some in H. apply build_some. unfold superclass in Hs.
    destruct c as [|[|[|[|[|[|c]]]]]]; cbn in Hs; try discriminate; try (injection Hs as <-; lia); lia.
  - intros c H. discriminate.
Qed.

(** Whatever the static type under which an object is known, its predicate is the same Viper
    predicate, in Acc(e.p()) as in a plain use e.p(). *)
Theorem C53_one_predicate : forall n P x c d t, wf_prog n P -> t < n -> inherits (p_tb P) t c -> inherits (p_tb P) t d ->
  (exists e, inherits (p_tb P) c e /\ has_pred P x e) -> (exists e, inherits (p_tb P) d e /\ has_pred P x e) ->
  exists r, used_in_acc P c x = Some r /\ used_in_acc P d x = Some r /\ used_in_call P c x = Some r /\ used_in_call P d x = Some r.
Proof. exact (fun n P x c d t W => one_predicate n P W x c d t). Qed.
Print Assumptions C53_one_predicate.
Example C53_one_predicate_ex : used_in_acc (build [2; 3; 4] []) 4 4 = Some 2 /\ used_in_call (build [2; 3; 4] []) 3 4 = Some 2.
Proof. split; vm_compute; reflexivity. Qed.

(** For an object whose class is [c] the predicate stands for the bodies that the classes
    above [c] (and [c] itself) give it, each of them once and those of base classes first.  A
    class that does not define the predicate itself has an unknown part in addition (not for
    lock invariants).  Proved for predicates without a gap in the chain of classes that define
    them; without this condition see C53_gap_refuted. *)
Theorem C53_content_partial : forall n P x lock c r, wf_prog n P -> concrete P x -> no_gap P x -> some_class P c ->
  used_in_acc P c x = Some r ->
  exists l, content P lock r x c = Some l /\
    (classes_once P -> NoDup l) /\
    (forall d, In (PBody d) l <-> inherits (p_tb P) c d /\ has_pred P x d) /\
    (In PRest l <-> lock = false /\ ~ has_pred P x c) /\
    (forall l1 d l2 e, l = l1 ++ PBody d :: l2 -> inherits (p_tb P) d e -> e <> d -> has_pred P x e -> In (PBody e) l1).
Proof. exact (fun n P x lock c r W => content_bodies n P W x lock c r). Qed.
Print Assumptions C53_content_partial.
Lemma chain_no_gap : no_gap (build [2; 3; 4] []) 4.
Proof.
  intros c p e H1 H2 H3 H4 H5. apply build_some in H1. unfold has_pred in *. unfold superclass in H3.
  assert (c = 2 \/ c = 3 \/ c = 4) as [-> | [-> | ->]] by (destruct c as [|[|[|[|[|[|c]]]]]]; cbn in H2; try tauto; lia).
  - injection H3 as <-. inversion H4 as [|? p ? Hp H6]; subst; [exact H5 | discriminate].
  - injection H3 as <-. left. reflexivity.
  - injection H3 as <-. left. reflexivity.
Qed.
Example C53_content_ex : concrete (build [2; 3; 4] []) 4 /\ no_gap (build [2; 3; 4] []) 4 /\ classes_once (build [2; 3; 4] []) /\
  content (build [2; 3; 4] []) false 2 4 4 = Some [PBody 2; PBody 3; PBody 4] /\
  content (build [2; 3; 4] []) false 2 4 2 = Some [PBody 2] /\
  content (build [2; 3; 4] []) false 2 4 5 = Some [PBody 2; PRest] /\
  content (build [2; 3; 4] []) true 2 4 5 = Some [PBody 2].
Proof.
  split; [intros c _; reflexivity|]. split; [exact chain_no_gap|]. split.
  - unfold classes_once. cbn. repeat constructor; cbn; intuition discriminate.
  - repeat split; vm_compute; reflexivity.
Qed.

(** Unfolding the predicate of an object known as a [d] gives at least the bodies of [d] and
    the classes above it, whatever class the object has, and everything that holds of a plain
    [d]. *)
Theorem C53_unfold_partial : forall n P x lock t d r, wf_prog n P -> concrete P x -> no_gap P x -> some_class P t ->
  inherits (p_tb P) t d -> used_in_acc P d x = Some r -> exists l, content P lock r x t = Some l /\
  (forall e, inherits (p_tb P) d e -> has_pred P x e -> In (PBody e) l) /\
  (forall l', content P lock r x d = Some l' -> forall e, In (PBody e) l' -> In (PBody e) l).
Proof. exact unfold_static. Qed.
Print Assumptions C53_unfold_partial.
Example C53_unfold_ex : inherits tab 4 3 /\ used_in_acc (build [2; 3; 4] []) 3 4 = Some 2.
Proof. split; [eapply inh_step; [reflexivity | constructor] | vm_compute; reflexivity]. Qed.

(** A family of which only a part is abstract is rejected. *)
Theorem C53_mixed_rejected : forall n P x lock r c, wf_prog n P -> some_class P c -> has_pred P x c -> family_of P x c r ->
  m_declared (p_info P (OClass c) x) <> m_declared (p_info P (OClass r) x) -> translate_family P lock r x = FRejected.
Proof. exact mixed_rejected. Qed.
Print Assumptions C53_mixed_rejected.
Example C53_mixed_ex : translate_family (build [2; 3] [2]) false 2 4 = FRejected /\
  m_declared (p_info (build [2; 3] [2]) (OClass 3) 4) <> m_declared (p_info (build [2; 3] [2]) (OClass 2) 4).
Proof. split; [vm_compute; reflexivity | discriminate]. Qed.

(** If a class in the middle merely inherits the predicate, the definition below it is
    dropped: A and C define p, C(B), B(A); for an object of class C the predicate that every
    use of p refers to does not contain the body given in C. *)
Theorem C53_gap_refuted : ~ (forall n P x lock c r, wf_prog n P -> concrete P x -> some_class P c ->
  used_in_acc P c x = Some r -> has_pred P x c -> exists l, content P lock r x c = Some l /\ In (PBody c) l).
Proof.
  intros H. destruct (H 6 (build [2; 4] []) 4 false 4 2) as [l [E L]].
  - apply build_wf.
  - intros c _. reflexivity.
  - apply build_some. lia.
  - vm_compute. reflexivity.
  - left. reflexivity.
  - assert (E' : content (build [2; 4] []) false 2 4 4 = Some [PBody 2; PRest]) by (vm_compute; reflexivity).
    rewrite E' in E. injection E as <-. cbn in L. intuition discriminate.
Qed.
Print Assumptions C53_gap_refuted.

(** For an object of a class that inherits the predicate without extending it, the predicate
    is more than the bodies of the classes above it: it cannot be folded from them. *)
Theorem C53_inherited_refuted : ~ (forall n P x c r l, wf_prog n P -> concrete P x -> no_gap P x -> some_class P c ->
  used_in_acc P c x = Some r -> content P false r x c = Some l ->
  forall p, In p l -> exists d, p = PBody d /\ inherits (p_tb P) c d /\ has_pred P x d).
Proof.
  intros H. destruct (H 6 (build [2; 3; 4] []) 4 5 2 [PBody 2; PRest]) with (p := PRest) as [d [E _]].
  - apply build_wf.
  - intros c _. reflexivity.
  - exact chain_no_gap.
  - apply build_some. lia.
  - vm_compute. reflexivity.
  - vm_compute. reflexivity.
  - cbn. auto.
  - discriminate.
Qed.
Print Assumptions C53_inherited_refuted.
