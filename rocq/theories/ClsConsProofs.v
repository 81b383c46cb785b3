(** Models of the axioms of the PyType domain. *)
From Coq Require Import Bool Arith List Lia ZifyBool.
From Verif Require Import ClsModel ClsSpec ClsProofs.
Import ListNotations.

Inductive uty :=
| UApp (c : cid) (l : list uty)
| UUn (l : list uty)
| UBas (c : cid)
| UUB.

Lemma uty_ind' (P : uty -> Prop) :
  (forall c l, Forall P l -> P (UApp c l)) -> (forall l, Forall P l -> P (UUn l)) ->
  (forall c, P (UBas c)) -> P UUB -> forall t, P t.
Proof.
  intros A U B V. fix IH 1. intros [c l|l|c|]; [apply A|apply U|apply B|apply V];
    induction l; constructor; auto.
Qed.

Fixpoint ueqb (a b : uty) {struct a} : bool :=
  let fix go (l m : list uty) {struct l} : bool :=
    match l, m with
    | [], [] => true
    | x :: l', y :: m' => ueqb x y && go l' m'
    | _, _ => false
    end in
  match a, b with
  | UApp c l, UApp d m => (c =? d) && go l m
  | UUn l, UUn m => go l m
  | UBas c, UBas d => c =? d
  | UUB, UUB => true
  | _, _ => false
  end.
Fixpoint usqb (l m : list uty) : bool :=
  match l, m with
  | [], [] => true
  | x :: l', y :: m' => ueqb x y && usqb l' m'
  | _, _ => false
  end.
Lemma ueqb_go l m :
  (fix go (l m : list uty) {struct l} : bool :=
    match l, m with
    | [], [] => true
    | x :: l', y :: m' => ueqb x y && go l' m'
    | _, _ => false
    end) l m = usqb l m.
Proof. revert m. induction l; destruct m; cbn; auto. Qed.
Lemma usqb_spec l : Forall (fun x => forall y, ueqb x y = true <-> x = y) l -> forall m, usqb l m = true <-> l = m.
Proof.
  induction 1 as [|x l Hx _ IH]; intros [|y m]; cbn [usqb]; try (split; congruence).
  rewrite andb_true_iff, Hx, IH. split; [intros [-> ->]; auto|intros [= -> ->]; auto].
Qed.
Lemma ueqb_spec a : forall b, ueqb a b = true <-> a = b.
Proof.
  induction a as [c l IH|l IH|c|] using uty_ind'; intros [d m|m|d|]; cbn [ueqb]; try (split; congruence).
  - rewrite ueqb_go, andb_true_iff, Nat.eqb_eq, (usqb_spec _ IH).
    split; [intros [-> ->]; auto|intros [= -> ->]; auto].
  - rewrite ueqb_go, (usqb_spec _ IH). split; congruence.
  - rewrite Nat.eqb_eq. split; congruence.
Qed.
Lemma ueqb_refl a : ueqb a a = true.
Proof. now apply ueqb_spec. Qed.
Lemma uty_dec (a b : uty) : a = b \/ a <> b.
Proof. destruct (ueqb a b) eqn:E; [left; now apply ueqb_spec|right; intros K; apply ueqb_spec in K; congruence]. Qed.

Section Cons.
Context (n : nat) (tb : table) (WF : wf_table n tb).

Definition uobj : uty := UApp 0 [].

Fixpoint uinst (args : list uty) (t : texpr) : uty :=
  match t with
  | TVar i => nth i args UUB
  | TApp c l => UApp c (map (uinst args) l)
  end.

(** The base: the instantiated base of a class type, object for everything else. *)
Definition usuper (t : uty) : option uty :=
  match t with
  | UApp c l =>
    if (c =? 0) && match l with [] => true | _ => false end then None
    else if c <? n then
      match c_super (tb c) with Some (p, m) => Some (UApp p (map (uinst l) m)) | None => Some uobj end
    else Some uobj
  | _ => Some uobj
  end.
Definition urank (t : uty) : nat :=
  match t with UApp c l => if (c =? 0) && match l with [] => true | _ => false end then 0 else S c | _ => 1 end.

Lemma urank_obj : urank uobj = 0.
Proof. reflexivity. Qed.
Lemma usuper_rank t b : usuper t = Some b -> urank b < urank t.
Proof.
  destruct t as [c l|l|c|]; cbn [usuper urank]; try (intros [= <-]; rewrite urank_obj; lia).
  destruct ((c =? 0) && _) eqn:E; [discriminate|].
  destruct (c <? n) eqn:C; [|intros [= <-]; rewrite urank_obj; lia].
  destruct (c_super (tb c)) as [(p, m)|] eqn:S; intros [= <-]; [|rewrite urank_obj; lia].
  apply Nat.ltb_lt in C.
  assert (p < c) as P. { eapply super_lt; eauto. unfold superclass. now rewrite S. }
  cbn [urank]. destruct ((p =? 0) && _); lia.
Qed.
Lemma usuper_none t : usuper t = None -> t = uobj.
Proof.
  destruct t as [c l|l|c|]; cbn [usuper]; try discriminate.
  destruct ((c =? 0) && _) eqn:E.
  - intros _. apply andb_prop in E as [E1 E2]. apply Nat.eqb_eq in E1 as ->. destruct l; [reflexivity|discriminate].
  - destruct (c <? n); [|discriminate]. destruct (c_super (tb c)) as [(p, m)|]; discriminate.
Qed.

Fixpoint uchain (fuel : nat) (t : uty) : list uty :=
  t :: match fuel with O => [] | S f => match usuper t with Some b => uchain f b | None => [] end end.

(** The ancestors of a type. *)
Inductive ubelow : uty -> uty -> Prop :=
| ub_refl t : ubelow t t
| ub_step t b u : usuper t = Some b -> ubelow b u -> ubelow t u.

Lemma uchain_spec fuel t u : urank t <= fuel -> (In u (uchain fuel t) <-> ubelow t u).
Proof.
  revert t. induction fuel as [|f IH]; intros t L; cbn [uchain].
  - destruct (usuper t) as [b|] eqn:E. { apply usuper_rank in E. lia. }
    split; [intros [<-|[]]; constructor|]. intros H. inversion H; subst; [now left|congruence].
  - destruct (usuper t) as [b|] eqn:E.
    + pose proof (usuper_rank _ _ E). cbn [In]. rewrite IH by lia. split.
      * intros [<-|H1]; [constructor|]. eapply ub_step; eauto.
      * intros H1. inversion H1; subst; auto. right. congruence.
    + split; [intros [<-|[]]; constructor|]. intros H. inversion H; subst; [now left|congruence].
Qed.
Definition uinh (t u : uty) : bool := existsb (ueqb u) (uchain (urank t) t).
Lemma uinh_spec t u : uinh t u = true <-> ubelow t u.
Proof.
  unfold uinh. rewrite existsb_exists, <- (uchain_spec (urank t)) by auto. split.
  - intros (x & H & E). apply ueqb_spec in E. now subst.
  - intros H. exists u. split; auto. apply ueqb_refl.
Qed.
Lemma ubelow_trans a b c : ubelow a b -> ubelow b c -> ubelow a c.
Proof. induction 1; auto. intros. eapply ub_step; eauto. Qed.
Lemma ubelow_linear a b c : ubelow a b -> ubelow a c -> ubelow b c \/ ubelow c b.
Proof.
  induction 1 as [t|t b u S B IH]; auto. intros H. inversion H; subst.
  - right. eapply ub_step; eauto.
  - rewrite S in H0. injection H0 as <-. auto.
Qed.
Lemma ubelow_rank a b : ubelow a b -> urank b <= urank a /\ (urank b = urank a -> b = a).
Proof.
  induction 1 as [t|t b u S B [IH1 IH2]]; [auto|]. apply usuper_rank in S. split; lia.
Qed.
Lemma ubelow_obj t : ubelow t uobj.
Proof.
  remember (urank t) as r eqn:R. revert t R. induction r as [r IH] using lt_wf_ind. intros t ->.
  destruct (usuper t) as [b|] eqn:E.
  - eapply ub_step; eauto. eapply IH; [|reflexivity]. now apply usuper_rank.
  - rewrite (usuper_none _ E). constructor.
Qed.
Lemma siblings_exclude t a b s : usuper a = Some s -> usuper b = Some s -> a <> b ->
  ubelow t a -> ubelow t b -> False.
Proof.
  intros A B NE TA TB.
  assert (forall x y, usuper x = Some s -> usuper y = Some s -> x <> y -> ubelow x y -> False) as K.
  { intros x y X Y N H. inversion H; subst; [congruence|]. rewrite X in H0. injection H0 as <-.
    apply ubelow_rank in H1 as [H1 _]. apply usuper_rank in Y. lia. }
  destruct (ubelow_linear _ _ _ TA TB); [apply (K a b)|apply (K b a)]; auto.
Qed.
Lemma ubelow_args c l m t : c <> 0 \/ l <> [] -> c <> 0 \/ m <> [] -> ubelow t (UApp c l) -> ubelow t (UApp c m) -> l = m.
Proof.
  intros NL NM A B.
  assert (urank (UApp c l) = urank (UApp c m)) as R.
  { cbn [urank]. destruct c; cbn; auto. destruct l, m; destruct NL, NM; congruence || reflexivity. }
  destruct (ubelow_linear _ _ _ A B) as [H|H]; apply ubelow_rank in H as [_ H].
  - specialize (H ltac:(congruence)). congruence.
  - specialize (H ltac:(congruence)). congruence.
Qed.

Definition usib (a b : uty) : bool :=
  match usuper a, usuper b with Some s, Some s' => ueqb s s' && negb (ueqb a b) | _, _ => false end.
Lemma usib_spec a b : usib a b = true <-> exists s, usuper a = Some s /\ usuper b = Some s /\ a <> b.
Proof.
  unfold usib. destruct (usuper a) as [s|] eqn:A; [|split; [discriminate|intros (s & K & _); discriminate]].
  destruct (usuper b) as [s'|] eqn:B; [|split; [discriminate|intros (s2 & _ & K & _); discriminate]].
  rewrite andb_true_iff, ueqb_spec, negb_true_iff. split.
  - intros [-> E]. exists s'. repeat split; auto. intros ->. now rewrite ueqb_refl in E.
  - intros (s2 & [= ->] & [= ->] & N). split; auto. destruct (ueqb a b) eqn:E; auto. apply ueqb_spec in E. contradiction.
Qed.
Definition uext (a b : uty) : bool := match usuper a with Some s => ueqb s b | None => false end.
Lemma uext_spec a b : uext a b = true <-> usuper a = Some b.
Proof. unfold uext. destruct (usuper a); [|split; discriminate]. rewrite ueqb_spec. split; congruence. Qed.

Definition ubasic (t : uty) : uty :=
  match t with
  | UApp c l => if c_nvars (tb c) =? 0 then t else UBas c
  | UUn _ => UUB
  | _ => t
  end.
Definition has_head (c : cid) (t : uty) : bool := match t with UApp d _ => c =? d | _ => false end.
Definition uarg_of (c : cid) (t : uty) (i : nat) : uty :=
  match find (has_head c) (uchain (urank t) t) with Some (UApp _ l) => nth i l UUB | _ => UUB end.

Lemma uarg_spec c l t i : c <> 0 -> ubelow t (UApp c l) -> uarg_of c t i = nth i l UUB.
Proof.
  intros C B. unfold uarg_of. destruct (find _ _) as [x|] eqn:F.
  - apply find_some in F as [F1 F2]. destruct x as [d m| | |]; try discriminate. cbn in F2. apply Nat.eqb_eq in F2 as <-.
    apply uchain_spec in F1; auto. rewrite (ubelow_args c l m t); auto.
  - exfalso. apply find_none with (x := UApp c l) in F; [|now apply uchain_spec]. cbn in F. rewrite Nat.eqb_refl in F. discriminate.
Qed.

(** Members of a union; any other type is its own member. *)
Fixpoint mems (t : uty) : list uty :=
  match t with
  | UUn (a :: l) => mems a ++ flat_map mems l
  | _ => [t]
  end.
Lemma mems_nonempty t : exists m, In m (mems t).
Proof.
  induction t as [c l _|l IH|c|] using uty_ind'; try (eexists; now left).
  destruct IH as [|x l (m & Hm) _]; [eexists; now left|]. exists m. cbn. apply in_or_app. now left.
Qed.
Lemma mems_app c l : mems (UApp c l) = [UApp c l].
Proof. reflexivity. Qed.
Definition usub (t u : uty) : bool := forallb (fun m => existsb (fun m' => uinh m m') (mems u)) (mems t).
Lemma usub_spec t u : usub t u = true <-> forall m, In m (mems t) -> exists m', In m' (mems u) /\ ubelow m m'.
Proof.
  unfold usub. rewrite forallb_forall. split; intros H m Hm.
  - specialize (H m Hm). apply existsb_exists in H as (m' & H1 & H2). exists m'. split; auto. now apply uinh_spec.
  - destruct (H m Hm) as (m' & H1 & H2). apply existsb_exists. exists m'. split; auto. now apply uinh_spec.
Qed.
Lemma usub_app t c l : usub t (UApp c l) = true <-> forall m, In m (mems t) -> ubelow m (UApp c l).
Proof.
  rewrite usub_spec. split; intros H m Hm.
  - destruct (H m Hm) as (m' & [<-|[]] & K). exact K.
  - exists (UApp c l). split; [now left|auto].
Qed.
(** Types with a base other than unions are their own members. *)
Definition atom (t : uty) : Prop := mems t = [t].
Lemma usub_atom t u : atom u -> (usub t u = true <-> forall m, In m (mems t) -> ubelow m u).
Proof.
  unfold atom. intros A. rewrite usub_spec, A. split; intros H m Hm.
  - destruct (H m Hm) as (m' & [<-|[]] & K). exact K.
  - exists u. split; [now left|auto].
Qed.

(** In the second model only class types and constants extend something. *)
Definition uatom (t : uty) : bool := match t with UUn (_ :: _) => false | _ => true end.
Lemma uatom_atom t : uatom t = true -> atom t.
Proof. destruct t as [c l|[|x l]|c|]; cbn; try reflexivity; discriminate. Qed.
Definition uext2 (a b : uty) : bool := uatom a && uext a b.
Definition usib2 (a b : uty) : bool := uatom a && uatom b && usib a b.

Definition uarg2 (c : cid) (t : uty) (i : nat) : uty :=
  match mems t with m :: _ => uarg_of c m i | [] => UUB end.

Definition model1 : interp := {|
  PyType := uty; Ref := bool; null := true;
  typeof := fun r => if r then UApp 1 [] else uobj;
  extends_ := uext; subtype := uinh; isnotsubtype := usib; get_basic := ubasic; union_basic := UUB;
  union_type := UUn; cls_type := UApp; cls_basic := UBas; cls_arg := uarg_of |}.
Definition model2 : interp := {|
  PyType := uty; Ref := bool; null := true;
  typeof := fun r => if r then UApp 1 [] else uobj;
  extends_ := uext2; subtype := usub; isnotsubtype := usib2; get_basic := ubasic; union_basic := UUB;
  union_type := UUn; cls_type := UApp; cls_basic := UBas; cls_arg := uarg2 |}.

Lemma literal1 args t : type_literal model1 args t = uinst args t.
Proof.
  induction t as [i|c l IH] using texpr_ind'; cbn; auto. f_equal. apply map_ext_in. intros x Hx.
  rewrite Forall_forall in IH. now apply IH.
Qed.
Lemma literal2 args t : type_literal model2 args t = uinst args t.
Proof.
  induction t as [i|c l IH] using texpr_ind'; cbn; auto. f_equal. apply map_ext_in. intros x Hx.
  rewrite Forall_forall in IH. now apply IH.
Qed.
Lemma class_super c p l args : c < n -> c_super (tb c) = Some (p, l) -> usuper (UApp c args) = Some (UApp p (map (uinst args) l)).
Proof.
  intros C S. cbn [usuper]. destruct (c =? 0) eqn:E.
  - apply Nat.eqb_eq in E as ->. destruct (wf_object _ _ WF) as [X _]. unfold object_id in X. congruence.
  - cbn [andb]. apply Nat.ltb_lt in C. now rewrite C, S.
Qed.
Lemma class_nonzero c : c < n -> c_nvars (tb c) <> 0 -> c <> 0.
Proof. intros C N ->. destruct (wf_object _ _ WF) as [_ X]. unfold object_id in X. congruence. Qed.
Lemma none_super : usuper (UApp 1 []) = Some uobj.
Proof.
  destruct (wf_none _ _ WF) as [X _]. pose proof (wf_two _ _ WF). unfold none_id, object_id in X.
  now rewrite (class_super 1 0 []) by (auto; lia).
Qed.
Lemma obj_not_none : ~ ubelow uobj (UApp 1 []).
Proof. intros H. apply ubelow_rank in H as [H _]. cbn in H. lia. Qed.
Lemma basic_typeof r : ubasic (if r : bool then UApp 1 [] else uobj) <> UUB.
Proof. destruct r; cbn; destruct (_ =? 0); discriminate. Qed.

Lemma model1_ok : class_axioms n tb model1.
Proof.
  unfold class_axioms. repeat match goal with |- _ /\ _ => split end.
  - intros [c|c|] [d|d|] _ _ H; cbn in H; congruence.
  - intros a b c H. apply andb_prop in H as [H1 H2]. apply uinh_spec in H1, H2. apply uinh_spec. eapply ubelow_trans; eauto.
  - intros t. apply uinh_spec. constructor.
  - intros a b H. apply uext_spec in H. apply uinh_spec. eapply ub_step; eauto. constructor.
  - intros r. cbn. rewrite uinh_spec. destruct r; split; auto.
    + intros _. constructor.
    + intros H. destruct (obj_not_none H).
    + discriminate.
  - intros r. apply basic_typeof.
  - intros t. apply uinh_spec. apply ubelow_obj.
  - intros a b s H N. apply andb_prop in H as [H1 H2]. apply uext_spec in H1, H2.
    apply andb_true_intro. split; apply usib_spec; exists s; auto.
  - intros a b H N. apply negb_true_iff. destruct (uinh b a) eqn:E; auto. exfalso. apply N.
    apply uinh_spec in E. apply uinh_spec in H. apply ubelow_rank in E as [E1 E2]. apply ubelow_rank in H as [H1 H2].
    symmetry. apply H2. lia.
  - intros a b s H. apply andb_prop in H as [H1 H2]. apply uinh_spec in H1. apply usib_spec in H2 as (p & P1 & P2 & P3).
    apply negb_true_iff. destruct (uinh a s) eqn:E; auto. apply uinh_spec in E. exfalso. exact (siblings_exclude a b s p P1 P2 P3 H1 E).
  - intros c p l args C S LEN. cbn [extends_ cls_type get_basic model1]. split.
    + apply uext_spec. rewrite (class_super _ _ _ _ C S). do 2 f_equal. apply map_ext. intros. symmetry. apply literal1.
    + reflexivity.
  - intros c args Z i d C LEN I S. cbn in *. apply uinh_spec in S.
    rewrite (uarg_spec c args); auto. { apply nth_indep. lia. } apply class_nonzero; auto. lia.
Qed.

Lemma fold_or {A} (f : A -> bool) l b : fold_left (fun acc a => acc || f a) l b = b || existsb f l.
Proof. revert b. induction l as [|x l IH]; intros b; cbn; [now rewrite orb_false_r|]. now rewrite IH, orb_assoc. Qed.
Lemma fold_and {A} (f : A -> bool) l b : fold_left (fun acc a => acc && f a) l b = b && forallb f l.
Proof. revert b. induction l as [|x l IH]; intros b; cbn; [now rewrite andb_true_r|]. now rewrite IH, andb_assoc. Qed.
Lemma mems_union l : l <> [] -> mems (UUn l) = flat_map mems l.
Proof. destruct l; [congruence|]. reflexivity. Qed.

Lemma model2_ok : type_axioms_without_exclusion_2 n tb model2.
Proof.
  unfold type_axioms_without_exclusion_2, union_axioms.
  repeat match goal with |- _ /\ _ => split end.
  - intros [c|c|] [d|d|] _ _ H; cbn in H; congruence.
  - intros a b c H. apply andb_prop in H as [H1 H2]. cbn in *. rewrite usub_spec in *.
    intros m Hm. destruct (H1 m Hm) as (m1 & M1 & B1). destruct (H2 m1 M1) as (m2 & M2 & B2).
    exists m2. split; auto. eapply ubelow_trans; eauto.
  - intros t. apply usub_spec. intros m Hm. exists m. split; auto. constructor.
  - intros a b H. apply andb_prop in H as [H0 H]. apply uext_spec in H. apply uatom_atom in H0.
    apply usub_spec. rewrite H0. intros m [<-|[]].
    assert (mems b = [b]) as MB.
    { destruct a as [c l|l|c|]; cbn [usuper] in H.
      - destruct ((c =? 0) && _); [discriminate|]. destruct (c <? n); [|injection H as <-; reflexivity].
        destruct (c_super (tb c)) as [(p, q)|]; injection H as <-; reflexivity.
      - injection H as <-; reflexivity.
      - injection H as <-; reflexivity.
      - injection H as <-; reflexivity. }
    rewrite MB. exists b. split; [now left|]. eapply ub_step; eauto. constructor.
  - intros r. cbn [subtype typeof cls_type null model2]. unfold none_id. rewrite usub_app. destruct r; split; auto.
    + intros _ m [<-|[]]. constructor.
    + intros H. destruct obj_not_none. apply H. now left.
    + discriminate.
  - intros r. apply basic_typeof.
  - intros t. apply usub_app. intros. apply ubelow_obj.
  - intros a b s H N. apply andb_prop in H as [H1 H2]. apply andb_prop in H1 as [A1 H1]. apply andb_prop in H2 as [A2 H2].
    apply uext_spec in H1, H2. cbn [isnotsubtype model2]. unfold usib2. rewrite A1, A2. cbn [andb].
    apply andb_true_intro. split; apply usib_spec; exists s; auto.
  - intros a b s H. apply andb_prop in H as [H1 H2]. apply andb_prop in H2 as [H2 H3]. apply andb_prop in H2 as [A1 A2].
    apply uatom_atom in A1, A2. apply usib_spec in H3 as (p & P1 & P2 & P3). cbn in H1. rewrite usub_atom in H1 by auto.
    apply negb_true_iff. destruct (subtype model2 a s) eqn:E; auto. cbn in E. rewrite usub_atom in E by auto.
    destruct (mems_nonempty a) as (m & M). exfalso. exact (siblings_exclude m b s p P1 P2 P3 (H1 m M) (E m M)).
  - intros c p l args C S LEN. cbn [extends_ cls_type get_basic model2]. split.
    + apply uext_spec. rewrite (class_super _ _ _ _ C S). do 2 f_equal. apply map_ext. intros. symmetry. apply literal2.
    + reflexivity.
  - intros c args Z i d C LEN I S. cbn [cls_arg subtype cls_type model2] in *. rewrite usub_app in S. unfold uarg2.
    destruct (mems_nonempty Z) as (m0 & M0). destruct (mems Z) as [|m ms]; [destruct M0|].
    rewrite (uarg_spec c args); [apply nth_indep; lia| |apply S; now left]. apply class_nonzero; auto. lia.
  - intros args L. reflexivity.
  - intros args X L NB. cbn in *. rewrite fold_or. cbn [orb].
    assert (args <> []) as NE by (destruct args; [cbn in L; lia|discriminate]).
    assert (mems X = [X]) as AX. { destruct X as [c l|[|x l]|c|]; try reflexivity. cbn in NB. congruence. }
    apply eq_true_iff_eq. rewrite usub_spec, existsb_exists, mems_union, AX by auto. split.
    + intros H. destruct (H X) as (m' & M & B); [now left|]. apply in_flat_map in M as (a & A1 & A2).
      exists a. split; auto. apply usub_spec. rewrite AX. intros m [<-|[]]. eauto.
    + intros (a & A1 & A2) m [<-|[]]. rewrite usub_spec, AX in A2. destruct (A2 X) as (m' & M & B); [now left|].
      exists m'. split; auto. apply in_flat_map. eauto.
  - intros args X L. cbn [subtype union_type PyType model2]. rewrite fold_and. cbn [andb].
    assert (args <> []) as NE by (destruct args; [cbn in L; lia|discriminate]).
    apply eq_true_iff_eq. rewrite usub_spec, forallb_forall, mems_union by auto. split.
    + intros H a A. apply usub_spec. intros m M. apply H. apply in_flat_map. eauto.
    + intros H m M. apply in_flat_map in M as (a & A1 & A2). specialize (H a A1). rewrite usub_spec in H. auto.
Qed.
End Cons.
