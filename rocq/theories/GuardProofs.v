(* Proofs about collecting guards. *)

From Coq Require Import List Bool Arith Lia.
From Verif Require Import GuardModel GuardSpec.
Import ListNotations.

Section CexpInd.
  Context (P : cexp -> Prop)
    (Hnode : forall op kids, Forall P kids -> P (CNode op kids))
    (Hand : forall kids, Forall P kids -> P (CAnd kids))
    (Hnot : forall e, P e -> P (CNot e))
    (Himp : forall a b, P a -> P b -> P (CImplies a b))
    (Hif : forall t b o, P t -> P b -> P o -> P (CIf t b o))
    (Hall : forall d b, P d -> P b -> P (CForall d b))
    (Hobl : forall k args, P (CObl k args))
    (Hsif : forall c m, P (CTermSif c m))
    (Hwait : P CWait).

  Fixpoint cexp_ind' (e : cexp) : P e :=
    let all := fix all (l : list cexp) : Forall P l :=
      match l with
      | [] => Forall_nil P
      | x :: r => Forall_cons x (cexp_ind' x) (all r)
      end in
    match e with
    | CNode op kids => Hnode op kids (all kids)
    | CAnd kids => Hand kids (all kids)
    | CNot x => Hnot x (cexp_ind' x)
    | CImplies a b => Himp a b (cexp_ind' a) (cexp_ind' b)
    | CIf t b o => Hif t b o (cexp_ind' t) (cexp_ind' b) (cexp_ind' o)
    | CForall d b => Hall d b (cexp_ind' d) (cexp_ind' b)
    | CObl k args => Hobl k args
    | CTermSif c m => Hsif c m
    | CWait => Hwait
    end.
End CexpInd.

(* A compositional reading of the visitor. *)
Definition ent : Type := path * option okind * list cexp.

Definition down (i : nat) (c : list cexp) (x : ent) : ent :=
  let '(p, k, g) := x in (i :: p, k, c ++ g).

Section Kids.
  Context (f : cexp -> list ent).
  Fixpoint kids_of (i : nat) (l : list cexp) : list ent :=
    match l with
    | [] => []
    | x :: r => map (down i []) (f x) ++ kids_of (S i) r
    end.
End Kids.

Fixpoint coll (e : cexp) : list ent :=
  match e with
  | CNode _ kids | CAnd kids =>
      (fix go (i : nat) (l : list cexp) : list ent :=
         match l with
         | [] => []
         | x :: r => map (down i []) (coll x) ++ go (S i) r
         end) 0 kids
  | CNot x => map (down 0 []) (coll x)
  | CImplies a b => map (down 1 [a]) (coll b)
  | CIf t b o => map (down 1 [t]) (coll b) ++ map (down 2 [CNot t]) (coll o)
  | CForall d b => map (down 0 []) (coll d) ++ map (down 1 []) (coll b)
  | CObl k _ => [([], Some k, [])]
  | CTermSif c _ => [([], Some MustTerminateK, [c])]
  | CWait => [([], None, [])]
  end.

Lemma coll_node op kids : coll (CNode op kids) = kids_of coll 0 kids.
Proof. reflexivity. Qed.

Lemma coll_and kids : coll (CAnd kids) = kids_of coll 0 kids.
Proof. reflexivity. Qed.

Definition inst_of (here : path) (g : list cexp) (x : ent) : list (path * okind * list cexp) :=
  let '(p, k, g') := x in
  match k with Some k => [(here ++ p, k, g ++ g')] | None => [] end.

Definition wait_of (here : path) (g : list cexp) (x : ent) : list (path * list cexp) :=
  let '(p, k, g') := x in
  match k with Some _ => [] | None => [(here ++ p, g ++ g')] end.

Definition after (here : path) (l : list ent) (st : vstate) : vstate :=
  {| current_guard := current_guard st;
     instances := instances st ++ flat_map (inst_of here (current_guard st)) l;
     waits := waits st ++ flat_map (wait_of here (current_guard st)) l |}.

Lemma inst_down here i c g x :
  inst_of here g (down i c x) = inst_of (here ++ [i]) (g ++ c) x.
Proof.
  destruct x as [[p k] g']; destruct k; simpl; auto.
  rewrite <- !app_assoc. reflexivity.
Qed.

Lemma wait_down here i c g x :
  wait_of here g (down i c x) = wait_of (here ++ [i]) (g ++ c) x.
Proof.
  destruct x as [[p k] g']; destruct k; simpl; auto.
  rewrite <- !app_assoc. reflexivity.
Qed.

Lemma flat_map_map (A B C : Type) (h : A -> B) (f : B -> list C) l :
  flat_map f (map h l) = flat_map (fun x => f (h x)) l.
Proof. induction l; simpl; [auto|]. rewrite IHl. reflexivity. Qed.

Lemma flat_map_eq (A B : Type) (f g : A -> list B) l :
  (forall x, f x = g x) -> flat_map f l = flat_map g l.
Proof. intro H. induction l; simpl; [auto|]. rewrite H, IHl. reflexivity. Qed.

Lemma inst_downs here i c g l :
  flat_map (inst_of here g) (map (down i c) l) = flat_map (inst_of (here ++ [i]) (g ++ c)) l.
Proof. rewrite flat_map_map. apply flat_map_eq. intro x. apply inst_down. Qed.

Lemma wait_downs here i c g l :
  flat_map (wait_of here g) (map (down i c) l) = flat_map (wait_of (here ++ [i]) (g ++ c)) l.
Proof. rewrite flat_map_map. apply flat_map_eq. intro x. apply wait_down. Qed.

Lemma after_app here l1 l2 st : after here (l1 ++ l2) st = after here l2 (after here l1 st).
Proof.
  unfold after; cbn [current_guard instances waits].
  rewrite !flat_map_app, !app_assoc. reflexivity.
Qed.

Lemma after_nil here st : after here [] st = st.
Proof. destruct st. unfold after. simpl. rewrite !app_nil_r. reflexivity. Qed.

Lemma after_down here i l st : after here (map (down i []) l) st = after (here ++ [i]) l st.
Proof.
  unfold after. rewrite inst_downs, wait_downs, !app_nil_r. reflexivity.
Qed.

Lemma after_push here i c l st :
  after here (map (down i [c]) l) st = pop (after (here ++ [i]) l (push c st)).
Proof.
  unfold after, pop, push; cbn [current_guard instances waits].
  rewrite removelast_last, inst_downs, wait_downs. reflexivity.
Qed.

Definition gok (e : cexp) : Prop := forall here st, visit here e st = after here (coll e) st.

Definition visit_kids (here : path) : nat -> list cexp -> vstate -> vstate :=
  fix go (i : nat) (l : list cexp) (st : vstate) : vstate :=
    match l with
    | [] => st
    | x :: r => go (S i) r (visit (here ++ [i]) x st)
    end.

Lemma visit_kids_ok here kids : Forall gok kids ->
  forall i st, visit_kids here i kids st = after here (kids_of coll i kids) st.
Proof.
  intro F; induction F as [|x l Hx F IH]; intros i st; simpl.
  - symmetry; apply after_nil.
  - rewrite Hx, IH, after_app, after_down. reflexivity.
Qed.

Lemma visit_ok e : gok e.
Proof.
  induction e as [op kids F|kids F|x IH|a b IHa IHb|t b o IHt IHb IHo|d b IHd IHb|k args|c m|]
    using cexp_ind'; intros here st.
  - rewrite coll_node. apply (visit_kids_ok here kids F 0 st).
  - rewrite coll_and. apply (visit_kids_ok here kids F 0 st).
  - cbn [visit coll]. rewrite IH, after_down. reflexivity.
  - cbn [visit coll]. rewrite IHb, after_push. reflexivity.
  - cbn [visit coll]. cbv zeta. rewrite IHb, IHo, after_app, !after_push. reflexivity.
  - cbn [visit coll]. rewrite IHd, IHb, after_app, !after_down. reflexivity.
  - cbn [visit coll]. unfold record, after; simpl. rewrite !app_nil_r. reflexivity.
  - cbn [visit coll]. unfold record, after; simpl. rewrite !app_nil_r. reflexivity.
  - cbn [visit coll]. unfold record_wait, after; simpl. rewrite !app_nil_r. reflexivity.
Qed.

Lemma traverse_ok e v : v_guard v = None ->
  traverse e v = Some {| v_guard := None;
    v_instances := v_instances v ++ flat_map (inst_of [] []) (coll e);
    v_waits := v_waits v ++ flat_map (wait_of [] []) (coll e) |}.
Proof.
  intro N. unfold traverse. rewrite N. cbv zeta. rewrite visit_ok. reflexivity.
Qed.

(* Members of the collection. *)
Lemma in_kids_of kids : forall i p k g,
  In (p, k, g) (kids_of coll i kids) <->
  exists j x p', nth_error kids j = Some x /\ p = (i + j) :: p' /\ In (p', k, g) (coll x).
Proof.
  induction kids as [|x r IH]; intros i p k g; simpl.
  - split; [tauto|]. intros (j & y & p' & H & _). destruct j; discriminate.
  - rewrite in_app_iff, in_map_iff, IH. split.
    + intros [([[p' k'] g'] & E & H) | (j & y & p' & H & E & M)].
      * cbn in E. injection E as <- <- <-. exists 0, x, p'.
        rewrite Nat.add_0_r. auto.
      * exists (S j), y, p'. rewrite <- plus_n_Sm. auto.
    + intros (j & y & p' & H & E & M). destruct j as [|j]; simpl in H.
      * injection H as <-. left. exists (p', k, g). rewrite Nat.add_0_r in E. subst p. auto.
      * right. exists j, y, p'. rewrite <- plus_n_Sm in E. auto.
Qed.

Lemma in_down i c l p k g :
  In (p, k, g) (map (down i c) l) <->
  exists p' g', p = i :: p' /\ g = c ++ g' /\ In (p', k, g') l.
Proof.
  rewrite in_map_iff. split.
  - intros ([[p' k'] g'] & E & H). cbn in E. injection E as <- <- <-. exists p', g'. auto.
  - intros (p' & g' & -> & -> & H). exists (p', k, g'). auto.
Qed.

Definition occurs (e : cexp) (p : path) (k : option okind) (g : list cexp) : Prop :=
  match k with
  | Some k => exists y g1 ex, at_path e p y g1 /\ is_obligation y k ex /\ g = g1 ++ ex
  | None => at_path e p CWait g
  end.

Lemma occurs_down (e e' : cexp) i (c : list cexp) :
  (forall p y g, at_path e' p y g -> at_path e (i :: p) y (c ++ g)) ->
  forall p k g, occurs e' p k g -> occurs e (i :: p) k (c ++ g).
Proof.
  intros H p k g O. destruct k as [k|]; simpl in *.
  - destruct O as (y & g1 & ex & A & B & ->). exists y, (c ++ g1), ex.
    rewrite app_assoc. auto.
  - auto.
Qed.

Lemma kids_occurs kids : Forall (fun x => forall p k g, In (p, k, g) (coll x) -> occurs x p k g) kids ->
  forall j x p k g, nth_error kids j = Some x -> In (p, k, g) (coll x) -> occurs x p k g.
Proof.
  intros F j x p k g H M. rewrite Forall_forall in F. apply nth_error_In in H. eauto.
Qed.

Lemma coll_occurs e : forall p k g, In (p, k, g) (coll e) -> occurs e p k g.
Proof.
  induction e as [op kids F|kids F|x IH|a b IHa IHb|t b o IHt IHb IHo|d b IHd IHb|k0 args|c m|]
    using cexp_ind'; intros p k g H.
  - rewrite coll_node, in_kids_of in H. destruct H as (j & x & p' & N & -> & M).
    apply (occurs_down (CNode op kids) x (0 + j) []).
    + intros q y g' A. simpl. econstructor; eauto.
    + eapply kids_occurs; eauto.
  - rewrite coll_and, in_kids_of in H. destruct H as (j & x & p' & N & -> & M).
    apply (occurs_down (CAnd kids) x (0 + j) []).
    + intros q y g' A. simpl. econstructor; eauto.
    + eapply kids_occurs; eauto.
  - cbn [coll] in H. rewrite in_down in H. destruct H as (p' & g' & -> & -> & M).
    apply (occurs_down (CNot x) x 0 []); auto. intros; simpl; constructor; auto.
  - cbn [coll] in H. rewrite in_down in H. destruct H as (p' & g' & -> & -> & M).
    apply (occurs_down (CImplies a b) b 1 [a]); auto. intros; simpl; constructor; auto.
  - cbn [coll] in H. rewrite in_app_iff, !in_down in H.
    destruct H as [(p' & g' & -> & -> & M)|(p' & g' & -> & -> & M)].
    + apply (occurs_down (CIf t b o) b 1 [t]); auto. intros; simpl; constructor; auto.
    + apply (occurs_down (CIf t b o) o 2 [CNot t]); auto. intros; simpl; constructor; auto.
  - cbn [coll] in H. rewrite in_app_iff, !in_down in H.
    destruct H as [(p' & g' & -> & -> & M)|(p' & g' & -> & -> & M)].
    + apply (occurs_down (CForall d b) d 0 []); auto. intros; simpl; constructor; auto.
    + apply (occurs_down (CForall d b) b 1 []); auto. intros; simpl; constructor; auto.
  - cbn in H. destruct H as [H|[]]. injection H as <- <- <-. simpl.
    exists (CObl k0 args), [], []. repeat split; constructor.
  - cbn in H. destruct H as [H|[]]. injection H as <- <- <-. simpl.
    exists (CTermSif c m), [], [c]. repeat split; constructor.
  - cbn in H. destruct H as [H|[]]. injection H as <- <- <-. simpl. constructor.
Qed.

Lemma path_coll e p y g : at_path e p y g ->
  forall k ex, (match k with Some k => is_obligation y k ex | None => y = CWait /\ ex = [] end) ->
  In (p, k, g ++ ex) (coll e).
Proof.
  intro A; induction A as [e|op kids i x p y g N A IH|kids i x p y g N A IH|x p y g A IH
    |a b p y g A IH|t b o p y g A IH|t b o p y g A IH|d b p y g A IH|d b p y g A IH];
    intros k ex H.
  - destruct k as [k|].
    + inversion H; subst; simpl; auto.
    + destruct H as [-> ->]. simpl; auto.
  - rewrite coll_node, in_kids_of. exists i, x, p. auto.
  - rewrite coll_and, in_kids_of. exists i, x, p. auto.
  - cbn [coll]. rewrite in_down. exists p, (g ++ ex). auto.
  - cbn [coll]. rewrite in_down. exists p, (g ++ ex). auto.
  - cbn [coll]. rewrite in_app_iff, !in_down. left. exists p, (g ++ ex). auto.
  - cbn [coll]. rewrite in_app_iff, !in_down. right. exists p, (g ++ ex). auto.
  - cbn [coll]. rewrite in_app_iff, !in_down. left. exists p, (g ++ ex). auto.
  - cbn [coll]. rewrite in_app_iff, !in_down. right. exists p, (g ++ ex). auto.
Qed.

Lemma in_instances l p k g :
  In (p, k, g) (flat_map (inst_of [] []) l) <-> In (p, Some k, g) l.
Proof.
  rewrite in_flat_map. split.
  - intros ([[p' k'] g'] & M & H). destruct k' as [k'|]; simpl in H; [|tauto].
    destruct H as [H|[]]. injection H as <- <- <-. exact M.
  - intro M. exists (p, Some k, g). simpl; auto.
Qed.

Lemma in_waits l p g :
  In (p, g) (flat_map (wait_of [] []) l) <-> In (p, None, g) l.
Proof.
  rewrite in_flat_map. split.
  - intros ([[p' k'] g'] & M & H). destruct k' as [k'|]; simpl in H; [tauto|].
    destruct H as [H|[]]. injection H as <- <-. exact M.
  - intro M. exists (p, None, g). simpl; auto.
Qed.

Definition collected (e : cexp) : list (path * okind * list cexp) :=
  flat_map (inst_of [] []) (coll e).
Definition collected_waits (e : cexp) : list (path * list cexp) :=
  flat_map (wait_of [] []) (coll e).

Lemma collected_iff e p k g :
  In (p, k, g) (collected e) <->
  exists y g1 ex, at_path e p y g1 /\ is_obligation y k ex /\ g = g1 ++ ex.
Proof.
  unfold collected. rewrite in_instances. split.
  - intro H. apply (coll_occurs e p (Some k) g H).
  - intros (y & g1 & ex & A & B & ->). apply (path_coll e p y g1 A (Some k) ex B).
Qed.

Lemma waits_iff e p g : In (p, g) (collected_waits e) <-> at_path e p CWait g.
Proof.
  unfold collected_waits. rewrite in_waits. split.
  - intro H. apply (coll_occurs e p None g H).
  - intro A. rewrite <- (app_nil_r g). apply (path_coll e p CWait g A None []). auto.
Qed.

(* Source order. *)
Inductive sorted : list path -> Prop :=
| sorted_nil : sorted []
| sorted_cons p l : (forall q, In q l -> before p q) -> sorted l -> sorted (p :: l).

Lemma sorted_app l1 l2 : sorted l1 -> sorted l2 ->
  (forall p q, In p l1 -> In q l2 -> before p q) -> sorted (l1 ++ l2).
Proof.
  intro S1; induction S1 as [|p l H S1 IH]; intros S2 B; simpl; auto.
  constructor.
  - intros q M. apply in_app_iff in M as [M|M]; [auto|]. apply B; simpl; auto.
  - apply IH; auto. intros; apply B; simpl; auto.
Qed.

Lemma sorted_order l : sorted l -> in_source_order l.
Proof.
  intro So; induction So as [|p l H So IH]; intros i j a b L Ni Nj.
  - destruct i; discriminate.
  - destruct i as [|i]; destruct j as [|j]; try lia; simpl in *.
    + injection Ni as <-. apply H. eapply nth_error_In; eauto.
    + eapply IH; [|eauto|eauto]. lia.
Qed.

Definition paths (l : list ent) : list path := map (fun x => fst (fst x)) l.

Lemma paths_app l1 l2 : paths (l1 ++ l2) = paths l1 ++ paths l2.
Proof. apply map_app. Qed.

Lemma paths_down i c l : paths (map (down i c) l) = map (cons i) (paths l).
Proof.
  unfold paths. rewrite !map_map. apply map_ext. intros [[p k] g]. reflexivity.
Qed.

Lemma sorted_down i l : sorted l -> sorted (map (cons i) l).
Proof.
  intro S1; induction S1 as [|p l H S1 IH]; simpl; constructor; auto.
  intros q M. apply in_map_iff in M as (q' & <- & M). constructor 2. auto.
Qed.

Lemma kids_paths kids : forall i q, In q (paths (kids_of coll i kids)) ->
  exists j q', i <= j /\ q = j :: q'.
Proof.
  induction kids as [|x r IH]; intros i q H; simpl in H; [tauto|].
  rewrite paths_app, in_app_iff, paths_down in H. destruct H as [H|H].
  - apply in_map_iff in H as (q' & <- & _). eauto.
  - apply IH in H as (j & q' & L & ->). exists j, q'. split; auto; lia.
Qed.

Lemma kids_sorted kids : Forall (fun x => sorted (paths (coll x))) kids ->
  forall i, sorted (paths (kids_of coll i kids)).
Proof.
  intro F; induction F as [|x r H F IH]; intro i; simpl; [constructor|].
  rewrite paths_app, paths_down. apply sorted_app; auto using sorted_down.
  intros p q M N. apply in_map_iff in M as (p' & <- & _).
  apply kids_paths in N as (j & q' & L & ->). constructor 1. lia.
Qed.

Lemma coll_sorted e : sorted (paths (coll e)).
Proof.
  induction e as [op kids F|kids F|x IH|a b IHa IHb|t b o IHt IHb IHo|d b IHd IHb|k0 args|c m|]
    using cexp_ind'.
  - rewrite coll_node. auto using kids_sorted.
  - rewrite coll_and. auto using kids_sorted.
  - cbn [coll]. rewrite paths_down. auto using sorted_down.
  - cbn [coll]. rewrite paths_down. auto using sorted_down.
  - cbn [coll]. rewrite paths_app, !paths_down. apply sorted_app; auto using sorted_down.
    intros p q M N. apply in_map_iff in M as (p' & <- & _).
    apply in_map_iff in N as (q' & <- & _). constructor 1. lia.
  - cbn [coll]. rewrite paths_app, !paths_down. apply sorted_app; auto using sorted_down.
    intros p q M N. apply in_map_iff in M as (p' & <- & _).
    apply in_map_iff in N as (q' & <- & _). constructor 1. lia.
  - cbn. constructor; [|constructor]. intros q [].
  - cbn. constructor; [|constructor]. intros q [].
  - cbn. constructor; [|constructor]. intros q [].
Qed.

Lemma inst_paths l q :
  In q (map (fun x => fst (fst x)) (flat_map (inst_of [] []) l)) -> In q (paths l).
Proof.
  rewrite in_map_iff. intros ([[p k] g] & <- & M). apply in_instances in M.
  unfold paths. apply in_map_iff. exists (p, Some k, g). auto.
Qed.

Lemma wait_paths l q :
  In q (map fst (flat_map (wait_of [] []) l)) -> In q (paths l).
Proof.
  rewrite in_map_iff. intros ([p g] & <- & M). apply in_waits in M.
  unfold paths. apply in_map_iff. exists (p, None, g). auto.
Qed.

Lemma inst_sorted l : sorted (paths l) ->
  sorted (map (fun x => fst (fst x)) (flat_map (inst_of [] []) l)).
Proof.
  induction l as [|[[p k] g] l IH]; simpl; intro So; [constructor|].
  inversion So as [|p0 l0 H S1]; subst. destruct k as [k|]; simpl; auto.
  constructor; auto. intros q M. apply H, inst_paths, M.
Qed.

Lemma wait_sorted l : sorted (paths l) -> sorted (map fst (flat_map (wait_of [] []) l)).
Proof.
  induction l as [|[[p k] g] l IH]; simpl; intro So; [constructor|].
  inversion So as [|p0 l0 H S1]; subst. destruct k as [k|]; simpl; auto.
  constructor; auto. intros q M. apply H, wait_paths, M.
Qed.

(* The main structural theorem. *)
Theorem traverse_exact e v : v_guard v = None ->
  exists found wfound,
    traverse e v = Some {| v_guard := None;
                           v_instances := v_instances v ++ found;
                           v_waits := v_waits v ++ wfound |} /\
    (forall p k g, In (p, k, g) found <->
       exists y g1 ex, at_path e p y g1 /\ is_obligation y k ex /\ g = g1 ++ ex) /\
    (forall p g, In (p, g) wfound <-> at_path e p CWait g) /\
    in_source_order (map (fun x => fst (fst x)) found) /\
    in_source_order (map fst wfound).
Proof.
  intro N. exists (collected e), (collected_waits e).
  split; [apply traverse_ok; auto|]. split; [apply collected_iff|]. split; [apply waits_iff|].
  split; apply sorted_order; [apply inst_sorted|apply wait_sorted]; apply coll_sorted.
Qed.

(* What is taken. *)
Lemma legal_false_taken e sif I : legal false e = true -> forall p k, ~ taken sif I e p k.
Proof.
  intros L p k T. induction T as [k args|c m H|kids i x p k N T IH|a b p k H T IH
    |t b o p k H T IH|t b o p k H T IH|d b p k H T IH]; cbn [legal] in L.
  - discriminate.
  - discriminate.
  - rewrite forallb_forall in L. apply IH, L. eapply nth_error_In; eauto.
  - apply andb_true_iff in L. tauto.
  - rewrite !andb_true_iff in L. tauto.
  - rewrite !andb_true_iff in L. tauto.
  - rewrite !andb_true_iff in L. tauto.
Qed.

Lemma legal_false_sites e : legal false e = true ->
  forall p y g, at_path e p y g -> legal false y = true.
Proof.
  intros L p y g A. induction A as [e|op kids i x p y g N A IH|kids i x p y g N A IH|x p y g A IH
    |a b p y g A IH|t b o p y g A IH|t b o p y g A IH|d b p y g A IH|d b p y g A IH];
    cbn [legal] in L; auto.
  - rewrite forallb_forall in L. apply IH, L. eapply nth_error_In; eauto.
  - rewrite forallb_forall in L. apply IH, L. eapply nth_error_In; eauto.
  - apply andb_true_iff in L. tauto.
  - rewrite !andb_true_iff in L. tauto.
  - rewrite !andb_true_iff in L. tauto.
  - rewrite !andb_true_iff in L. tauto.
  - rewrite !andb_true_iff in L. tauto.
Qed.

Lemma unquantified_kids kids : unquantified (CAnd kids) ->
  forall i x, nth_error kids i = Some x -> unquantified x.
Proof.
  induction kids as [|y r IH]; intros U i x N; [destruct i; discriminate|].
  destruct U as [U1 U2]. destruct i as [|i]; simpl in N.
  - injection N as <-. exact U1.
  - exact (IH U2 i x N).
Qed.

Lemma obligation_illegal y k ex : is_obligation y k ex -> legal false y = true -> False.
Proof. intros O L. inversion O; subst; cbn in L; discriminate. Qed.

Lemma site_taken sif I e p y g : at_path e p y g -> unquantified e -> legal true e = true ->
  forall k ex, is_obligation y k ex -> (sif = true \/ ex = []) ->
  (guard_holds I (g ++ ex) = true <-> taken sif I e p k).
Proof.
  intro A; induction A as [e|op kids i x p y g N A IH|kids i x p y g N A IH|x p y g A IH
    |a b p y g A IH|t b o p y g A IH|t b o p y g A IH|d b p y g A IH|d b p y g A IH];
    intros U L k ex O Sf.
  - inversion O; subst; simpl.
    + split; [constructor|auto].
    + destruct Sf as [->|Sf]; [|discriminate]. rewrite andb_true_r. split.
      * intro H. constructor. auto.
      * intro T. inversion T; subst. auto.
  - exfalso. cbn [legal] in L. rewrite forallb_forall in L.
    pose proof (L x (nth_error_In _ _ N)) as Lx.
    exact (obligation_illegal y k ex O (legal_false_sites x Lx p y g A)).
  - cbn [legal] in L. rewrite forallb_forall in L.
    pose proof (L x (nth_error_In _ _ N)) as Lx.
    rewrite (IH (unquantified_kids kids U i x N) Lx k ex O Sf). split.
    + intro T. econstructor; eauto.
    + intro T. inversion T as [| |kids' i' x' p' k' N' T'| | | |]; subst.
      rewrite N in N'. injection N' as <-. exact T'.
  - exfalso. cbn [legal] in L.
    exact (obligation_illegal y k ex O (legal_false_sites x L p y g A)).
  - cbn [legal] in L. apply andb_true_iff in L as [_ Lb]. cbn [app].
    unfold guard_holds. cbn [forallb]. rewrite andb_true_iff.
    fold (guard_holds I (g ++ ex)). rewrite (IH U Lb k ex O Sf). split.
    + intros [H T]. constructor; auto.
    + intro T. inversion T; subst. auto.
  - cbn [legal] in L. rewrite !andb_true_iff in L. destruct U as [Ub Uo]. cbn [app].
    unfold guard_holds. cbn [forallb]. rewrite andb_true_iff.
    fold (guard_holds I (g ++ ex)). rewrite (IH Ub (proj2 (proj1 L)) k ex O Sf). split.
    + intros [H T]. constructor; auto.
    + intro T. inversion T; subst. auto.
  - cbn [legal] in L. rewrite !andb_true_iff in L. destruct U as [Ub Uo]. cbn [app].
    unfold guard_holds. cbn [forallb truth]. rewrite andb_true_iff, negb_true_iff.
    fold (guard_holds I (g ++ ex)). rewrite (IH Uo (proj2 L) k ex O Sf). split.
    + intros [H T]. constructor; auto.
    + intro T. inversion T; subst. auto.
  - destruct U.
  - destruct U.
Qed.

Lemma taken_site sif I e p k : taken sif I e p k ->
  exists y g ex, at_path e p y g /\ is_obligation y k ex.
Proof.
  intro T. induction T as [k args|c m H|kids i x p k N T IH|a b p k H T IH
    |t b o p k H T IH|t b o p k H T IH|d b p k H T IH].
  - exists (CObl k args), [], []. split; constructor.
  - exists (CTermSif c m), [], [c]. split; constructor.
  - destruct IH as (y & g & ex & A & O). exists y, g, ex. split; auto. econstructor; eauto.
  - destruct IH as (y & g & ex & A & O). exists y, (a :: g), ex. split; auto. constructor; auto.
  - destruct IH as (y & g & ex & A & O). exists y, (t :: g), ex. split; auto. constructor; auto.
  - destruct IH as (y & g & ex & A & O). exists y, (CNot t :: g), ex. split; auto. constructor; auto.
  - destruct IH as (y & g & ex & A & O). exists y, g, ex. split; auto. constructor; auto.
Qed.

Theorem guards_mean_taken sif I e : unquantified e -> legal true e = true ->
  exists v, traverse e fresh_visitor = Some v /\
    (forall p k g, In (p, k, g) (v_instances v) -> sif = true \/ ~ sif_site e p ->
       (guard_holds I g = true <-> taken sif I e p k)) /\
    (forall p k, taken sif I e p k -> exists g, In (p, k, g) (v_instances v)).
Proof.
  intros U L. eexists. split; [apply traverse_ok; reflexivity|]. cbn [v_instances fresh_visitor app].
  fold (collected e). split.
  - intros p k g M Sf. apply collected_iff in M as (y & g1 & ex & A & O & ->).
    apply site_taken with (y := y); auto. destruct Sf as [->|N]; auto.
    right. inversion O; subst; auto. destruct N. unfold sif_site. eauto.
  - intros p k T. destruct (taken_site sif I e p k T) as (y & g & ex & A & O).
    exists (g ++ ex). apply collected_iff. eauto 6.
Qed.

Lemma okind_eqb_true a b : okind_eqb a b = true <-> a = b.
Proof. destruct a, b; simpl; split; congruence. Qed.

Theorem promise_exact sif I e : unquantified e -> legal true e = true ->
  (sif = true \/ forall p, ~ sif_site e p) ->
  exists v, traverse e fresh_visitor = Some v /\
    (promise I (v_instances v) = true <-> exists p, taken sif I e p MustTerminateK).
Proof.
  intros U L Sf. destruct (guards_mean_taken sif I e U L) as (v & E & G1 & G2).
  assert (Sf' : forall p, sif = true \/ ~ sif_site e p) by (intro; destruct Sf; auto).
  exists v. split; auto. unfold promise. rewrite existsb_exists. split.
  - intros ([[p k] g] & M & H). cbn [fst snd] in H. apply andb_true_iff in H as [K H].
    apply okind_eqb_true in K. subst k. exists p. apply (G1 p MustTerminateK g M (Sf' p)), H.
  - intros (p & T). destruct (G2 p _ T) as (g & M). exists (p, MustTerminateK, g).
    split; auto. cbn [fst snd]. apply andb_true_iff. split; [reflexivity|].
    apply (G1 p _ g M (Sf' p)), T.
Qed.
