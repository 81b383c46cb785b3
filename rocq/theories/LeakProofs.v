(* Proofs about keeping account of obligations. *)

From Coq Require Import List Bool Arith ZArith Lia.
From Verif Require Import TermModel TermProofs LeakModel LeakSpec.
Import ListNotations.

Lemma update_same f t n : update f t n t = n.
Proof. unfold update. rewrite Z.eqb_refl. reflexivity. Qed.

Lemma update_other f t n x : x <> t -> update f t n x = f x.
Proof. intro H. unfold update. apply Z.eqb_neq in H. rewrite H. reflexivity. Qed.

Definition one (t' t : Z) : nat := if Z.eqb t' t then 1 else 0.

Lemma one_same t : one t t = 1.
Proof. unfold one. rewrite Z.eqb_refl. reflexivity. Qed.

Lemma one_other t t' : t' <> t -> one t' t = 0.
Proof. intro H. unfold one. apply Z.eqb_neq in H. rewrite H. reflexivity. Qed.

Definition pick (r r' : resource) : nat :=
  match r, r' with
  | RBounded, RBounded | RUnbounded, RUnbounded | RCredit, RCredit => 1
  | _, _ => 0
  end.

Lemma perm_set r t n p r' t' :
  perm_of r' (set_perm r t n p) t' =
  if Nat.eqb (pick r r') 1 then update (perm_of r p) t n t' else perm_of r' p t'.
Proof. destruct r, r'; reflexivity. Qed.

Lemma inhale_perm r t p r' t' :
  perm_of r' (inhale_acc r t p) t' = perm_of r' p t' + pick r r' * one t t'.
Proof.
  unfold inhale_acc. rewrite perm_set.
  destruct (Z.eq_dec t t') as [->|N].
  - rewrite one_same, update_same. destruct r, r'; cbn [pick Nat.eqb perm_of]; lia.
  - rewrite one_other, update_other by auto. destruct r, r'; cbn [pick Nat.eqb perm_of]; lia.
Qed.

Lemma exhale_perm r t p q : exhale_acc r t p = Some q ->
  forall r' t', perm_of r' p t' = perm_of r' q t' + pick r r' * one t t'.
Proof.
  unfold exhale_acc. destruct (perm_of r p t) as [|n] eqn:E; [discriminate|].
  intro H. injection H as <-. intros r' t'. rewrite perm_set.
  destruct (Z.eq_dec t t') as [->|N].
  - rewrite one_same, update_same. destruct r, r'; cbn [pick Nat.eqb perm_of] in *; lia.
  - rewrite one_other, update_other by auto. destruct r, r'; cbn [pick Nat.eqb perm_of]; lia.
Qed.

(* What one use exhales: one resource of its target. *)
Definition takes (k : okind) (map : option (list entry)) (x : use) (r : resource) : Prop :=
  match x, r with
  | Fresh _, RUnbounded => True
  | Fresh _, RCredit => k = Invoke
  | Measured t m, RBounded =>
      match map with Some mm => measure_check mm t m = true | None => True end
  | Measured _ _, RUnbounded => True
  | Measured _ _, RCredit => k = Invoke
  | Ctoken _, RCredit => True
  | _, _ => False
  end.

Definition target (x : use) : Z := match x with Fresh t | Measured t _ | Ctoken t => t end.

Lemma unbounded_exhale_takes k t p q : unbounded_exhale k t p = Some q ->
  exists r, exhale_acc r t p = Some q /\ (r = RUnbounded \/ (r = RCredit /\ k = Invoke)).
Proof.
  unfold unbounded_exhale. destruct k.
  - eauto.
  - destruct (Nat.ltb 0 (unbounded p t)); eauto.
Qed.

Lemma exhale_use_takes k map x p q : exhale_use k map x p = Some q ->
  exists r, exhale_acc r (target x) p = Some q /\ takes k map x r.
Proof.
  destruct x as [t|t m|t]; cbn [exhale_use target].
  - intro H. apply unbounded_exhale_takes in H as (r & H & [->|[-> ->]]); eexists; split; eauto; simpl; auto.
  - unfold bounded_exhale. cbv zeta.
    destruct (Nat.ltb 0 (bounded p t) && _) eqn:C.
    + intro H. apply andb_true_iff in C as [_ C]. exists RBounded. split; auto.
      cbn. destruct map; auto.
    + intro H. apply unbounded_exhale_takes in H as (r & H & [->|[-> ->]]); eexists; split; eauto; simpl; auto.
  - intro H. exists RCredit. split; auto. simpl. auto.
Qed.

(* Weights: what a use mentions. *)
Definition w_held (x : use) (t : Z) : nat :=
  match x with Fresh t' | Measured t' _ => one t' t | Ctoken _ => 0 end.
Definition w_fresh (x : use) (t : Z) : nat :=
  match x with Fresh t' => one t' t | _ => 0 end.
Definition w_credit (x : use) (t : Z) : nat :=
  match x with Ctoken t' => one t' t | _ => 0 end.

Lemma mentions_cons t x l : mentions t (x :: l) = w_held x t + mentions t l.
Proof.
  unfold mentions. cbn [filter].
  destruct x as [t'|t' m|t']; cbn [w_held]; unfold one; try destruct (Z.eqb t' t); reflexivity.
Qed.
Lemma mentions_fresh_cons t x l : mentions_fresh t (x :: l) = w_fresh x t + mentions_fresh t l.
Proof.
  unfold mentions_fresh. cbn [filter].
  destruct x as [t'|t' m|t']; cbn [w_fresh]; unfold one; try destruct (Z.eqb t' t); reflexivity.
Qed.
Lemma mentions_credit_cons t x l : mentions_credit t (x :: l) = w_credit x t + mentions_credit t l.
Proof.
  unfold mentions_credit. cbn [filter].
  destruct x as [t'|t' m|t']; cbn [w_credit]; unfold one; try destruct (Z.eqb t' t); reflexivity.
Qed.

(* Inhaling adds exactly what is mentioned. *)
Lemma inhale_use_count x p t :
  bounded (inhale_use x p) t = bounded p t + (w_held x t - w_fresh x t) /\
  unbounded (inhale_use x p) t = unbounded p t + w_fresh x t /\
  credit (inhale_use x p) t = credit p t + w_credit x t.
Proof.
  destruct x as [t'|t' m|t']; cbn [inhale_use w_held w_fresh w_credit].
  - pose proof (inhale_perm RUnbounded t' p RBounded t) as H1.
    pose proof (inhale_perm RUnbounded t' p RUnbounded t) as H2.
    pose proof (inhale_perm RUnbounded t' p RCredit t) as H3. cbn [perm_of pick] in *. lia.
  - pose proof (inhale_perm RBounded t' p RBounded t) as H1.
    pose proof (inhale_perm RBounded t' p RUnbounded t) as H2.
    pose proof (inhale_perm RBounded t' p RCredit t) as H3. cbn [perm_of pick] in *. lia.
  - pose proof (inhale_perm RCredit t' p RBounded t) as H1.
    pose proof (inhale_perm RCredit t' p RUnbounded t) as H2.
    pose proof (inhale_perm RCredit t' p RCredit t) as H3. cbn [perm_of pick] in *. lia.
Qed.

Lemma w_fresh_le x t : w_fresh x t <= w_held x t.
Proof. destruct x; cbn; lia. Qed.

Lemma inhale_all_count l : forall p t,
  held (inhale_all l p) t = held p t + mentions t l /\
  unbounded (inhale_all l p) t = unbounded p t + mentions_fresh t l /\
  credit (inhale_all l p) t = credit p t + mentions_credit t l.
Proof.
  induction l as [|x l IH]; intros p t.
  - unfold mentions, mentions_fresh, mentions_credit, held; simpl. lia.
  - rewrite mentions_cons, mentions_fresh_cons, mentions_credit_cons.
    change (inhale_all (x :: l) p) with (inhale_all l (inhale_use x p)).
    destruct (IH (inhale_use x p) t) as (H1 & H2 & H3). rewrite H1, H2, H3.
    destruct (inhale_use_count x p t) as (Q1 & Q2 & Q3). unfold held. rewrite Q1, Q2, Q3.
    pose proof (w_fresh_le x t). lia.
Qed.

(* Exhaling. *)
Lemma exhale_use_count k map x p q t : exhale_use k map x p = Some q ->
  held q t <= held p t /\ held p t <= held q t + w_held x t /\
  held p t + credit p t = held q t + credit q t + w_held x t + w_credit x t /\
  credit q t <= credit p t /\
  unbounded q t <= unbounded p t /\
  unbounded q t + credit q t + w_fresh x t + w_credit x t <= unbounded p t + credit p t /\
  (k = Release -> held p t = held q t + w_held x t).
Proof.
  intro H. apply exhale_use_takes in H as (r & H & T). pose proof (exhale_perm _ _ _ _ H) as E.
  pose proof (E RBounded t) as E1. pose proof (E RUnbounded t) as E2.
  pose proof (E RCredit t) as E3. unfold held.
  destruct x as [t'|t' m|t'], r; cbn [takes] in T; try contradiction;
    cbn [target w_held w_fresh w_credit perm_of pick] in *; repeat split; try lia;
    intro K; rewrite K in T; discriminate.
Qed.

Lemma exhale_all_count k map l : forall p q t, exhale_all k map l p = Some q ->
  held q t <= held p t /\ held p t <= held q t + mentions t l /\
  held p t + credit p t = held q t + credit q t + mentions t l + mentions_credit t l /\
  credit q t <= credit p t /\
  unbounded q t <= unbounded p t /\
  unbounded q t + credit q t + mentions_fresh t l + mentions_credit t l
    <= unbounded p t + credit p t /\
  (k = Release -> held p t = held q t + mentions t l).
Proof.
  induction l as [|x l IH]; intros p q t H.
  - cbn in H. injection H as <-. unfold mentions, mentions_fresh, mentions_credit; simpl.
    repeat split; intros; lia.
  - cbn [exhale_all] in H. destruct (exhale_use k map x p) as [p1|] eqn:E; [|discriminate].
    apply IH with (t := t) in H. apply exhale_use_count with (t := t) in E.
    rewrite mentions_cons, mentions_fresh_cons, mentions_credit_cons.
    destruct H as (H1 & H2 & H3 & H4 & H5 & H6 & H7).
    destruct E as (E1 & E2 & E3 & E4 & E5 & E6 & E7).
    repeat split; try lia. intro K. specialize (H7 K). specialize (E7 K). lia.
Qed.

Lemma exhale_acc_some r t p : 0 < perm_of r p t -> exists q, exhale_acc r t p = Some q.
Proof. unfold exhale_acc. destruct (perm_of r p t); [lia|eauto]. Qed.

(* With enough bounded obligations exhaling a measured use may take one of those, and leaves
   the unbounded ones. *)
Lemma exhale_use_possible k map x p :
  w_held x (target x) <= unbounded p (target x) -> w_credit x (target x) <= credit p (target x) ->
  exists q, exhale_use k map x p = Some q /\
    (forall t, unbounded p t <= unbounded q t + w_held x t) /\
    (forall t, credit p t <= credit q t + w_credit x t).
Proof.
  intros H1 H2.
  assert (forall r q, exhale_acc r (target x) p = Some q -> r <> RCredit \/ w_credit x = one (target x) ->
    r <> RUnbounded \/ w_held x = one (target x) ->
    (forall t, unbounded p t <= unbounded q t + w_held x t) /\
    (forall t, credit p t <= credit q t + w_credit x t)) as A.
  { intros r q E C1 C2. pose proof (exhale_perm _ _ _ _ E) as Q.
    split; intro t; pose proof (Q RUnbounded t) as Q1; pose proof (Q RCredit t) as Q2;
      destruct r; cbn [perm_of pick] in *; try lia.
    - destruct C2 as [C2|C2]; [contradiction|]. rewrite C2. lia.
    - destruct C1 as [C1|C1]; [contradiction|]. rewrite C1. lia. }
  destruct x as [t|t m|t]; cbn [exhale_use target w_held w_credit] in *; rewrite one_same in *.
  - destruct (exhale_acc_some RUnbounded t p) as (q & E); [exact H1|].
    exists q. split.
    + unfold unbounded_exhale. destruct k; [exact E|].
      rewrite (proj2 (Nat.ltb_lt _ _)) by lia. exact E.
    + apply (A RUnbounded q E); [left; discriminate|right; reflexivity].
  - unfold bounded_exhale. cbv zeta. destruct (Nat.ltb 0 (bounded p t) && _) eqn:C.
    + apply andb_true_iff in C as [C _]. apply Nat.ltb_lt in C.
      destruct (exhale_acc_some RBounded t p) as (q & E); [exact C|].
      exists q. split; [exact E|]. apply (A RBounded q E); left; discriminate.
    + destruct (exhale_acc_some RUnbounded t p) as (q & E); [exact H1|].
      exists q. split.
      * unfold unbounded_exhale. destruct k; [exact E|].
        rewrite (proj2 (Nat.ltb_lt _ _)) by lia. exact E.
      * apply (A RUnbounded q E); [left; discriminate|right; reflexivity].
  - destruct (exhale_acc_some RCredit t p) as (q & E); [exact H2|].
    exists q. split; [exact E|]. apply (A RCredit q E); [right; reflexivity|left; discriminate].
Qed.

Theorem exhale_possible k map l : forall p,
  (forall t, mentions t l <= unbounded p t /\ mentions_credit t l <= credit p t) ->
  exists q, exhale_all k map l p = Some q.
Proof.
  induction l as [|x l IH]; intros p H.
  - exists p. reflexivity.
  - destruct (exhale_use_possible k map x p) as (q & E & Q1 & Q2).
    + destruct (H (target x)) as [A _]. rewrite mentions_cons in A. lia.
    + destruct (H (target x)) as [_ A]. rewrite mentions_credit_cons in A. lia.
    + cbn [exhale_all]. rewrite E. apply IH. intro t. specialize (H t).
      rewrite mentions_cons, mentions_credit_cons in H. specialize (Q1 t). specialize (Q2 t). lia.
Qed.

(* Bounding. *)
Lemma bound_use_count x p t :
  held (bound_use x p) t = held p t /\ credit (bound_use x p) t = credit p t /\
  unbounded (bound_use x p) t = unbounded p t - w_fresh x t.
Proof.
  destruct x as [t'|t' m|t']; cbn [bound_use w_fresh]; unfold held.
  - destruct (Nat.ltb_spec 0 (unbounded p t')) as [L|L].
    + destruct (exhale_acc RUnbounded t' p) as [q|] eqn:E.
      * pose proof (exhale_perm _ _ _ _ E) as Q.
        pose proof (Q RBounded t) as Q1. pose proof (Q RUnbounded t) as Q2.
        pose proof (Q RCredit t) as Q3.
        pose proof (inhale_perm RBounded t' q RBounded t) as H1.
        pose proof (inhale_perm RBounded t' q RUnbounded t) as H2.
        pose proof (inhale_perm RBounded t' q RCredit t) as H3.
        cbn [perm_of pick] in *. lia.
      * unfold exhale_acc in E. cbn [perm_of] in E.
        destruct (unbounded p t') eqn:U; [lia|discriminate].
    + split; [reflexivity|]. split; [reflexivity|].
      destruct (Z.eq_dec t' t) as [->|N]; [rewrite one_same|rewrite one_other by auto]; lia.
  - lia.
  - lia.
Qed.

Lemma bound_all_count l : forall p t,
  held (bound_all l p) t = held p t /\ credit (bound_all l p) t = credit p t /\
  unbounded (bound_all l p) t = unbounded p t - mentions_fresh t l.
Proof.
  induction l as [|x l IH]; intros p t.
  - unfold mentions_fresh; simpl. lia.
  - rewrite mentions_fresh_cons.
    change (bound_all (x :: l) p) with (bound_all l (bound_use x p)).
    destruct (IH (bound_use x p) t) as (H1 & H2 & H3).
    destruct (bound_use_count x p t) as (Q1 & Q2 & Q3). lia.
Qed.

Lemma new_perms_count l t :
  held (bound_all l (inhale_all l no_perms)) t = mentions t l /\
  credit (bound_all l (inhale_all l no_perms)) t = mentions_credit t l /\
  unbounded (bound_all l (inhale_all l no_perms)) t = 0.
Proof.
  destruct (bound_all_count l (inhale_all l no_perms) t) as (H1 & H2 & H3).
  destruct (inhale_all_count l no_perms t) as (Q1 & Q2 & Q3).
  unfold held in *. cbn [no_perms bounded unbounded credit] in *. lia.
Qed.

Lemma held_none p t : no_leak p -> held p t = 0 /\ unbounded p t = 0.
Proof. intro N. destruct (N t) as [N1 N2]. unfold held. lia. Qed.

(* One step. *)
Lemma step_count k ev s s' t : step k ev s s' ->
  all_held s t + brings t ev <= all_held s' t + fulfils t ev /\
  all_held s' t + all_credit s' t + fulfils t ev <=
    all_held s t + all_credit s t + brings t ev + brings_credit t ev /\
  all_unbounded s' t + all_credit s' t + hands_fresh t ev <=
    all_unbounded s t + all_credit s t + brings_fresh t ev + brings_credit t ev /\
  (k = Release -> all_held s' t + fulfils t ev = all_held s t + brings t ev).
Proof.
  intro St. destruct St as [pre promise f b rest p Pos E L|post f b p g c rest FL E N
    |pre post promise f b rest p Pos E L|inv promise f b rest p Pos E L
    |inv f b p mm rest FL Pos E N|inv f b p mm g c rest FL E N|f b mm g c rest FL];
    unfold all_held, all_credit, all_unbounded;
    cbn [sum_over f_perms with_perms method_frame iteration_frame brings fulfils brings_fresh
         brings_credit hands_fresh].
  - destruct (exhale_all_count _ _ _ _ _ t E) as (H1 & H2 & H3 & H4 & H5 & H6 & H7).
    destruct (new_perms_count pre t) as (Q1 & Q2 & Q3). rewrite Q1, Q2, Q3.
    repeat split; try lia. intro K. specialize (H7 K). lia.
  - destruct (exhale_all_count _ _ _ _ _ t E) as (H1 & H2 & H3 & H4 & H5 & H6 & H7).
    destruct (inhale_all_count post (f_perms g) t) as (Q1 & Q2 & Q3). rewrite Q1, Q2, Q3.
    destruct (held_none p t N) as [N1 N2].
    repeat split; try lia. intro K. specialize (H7 K). lia.
  - destruct (exhale_all_count _ _ _ _ _ t E) as (H1 & H2 & H3 & H4 & H5 & H6 & H7).
    destruct (inhale_all_count post p t) as (Q1 & Q2 & Q3). rewrite Q1, Q2, Q3.
    repeat split; try lia. intro K. specialize (H7 K). lia.
  - destruct (exhale_all_count _ _ _ _ _ t E) as (H1 & H2 & H3 & H4 & H5 & H6 & H7).
    destruct (new_perms_count inv t) as (Q1 & Q2 & Q3). rewrite Q1, Q2, Q3.
    repeat split; try lia. intro K. specialize (H7 K). lia.
  - destruct (exhale_all_count _ _ _ _ _ t E) as (H1 & H2 & H3 & H4 & H5 & H6 & H7).
    destruct (new_perms_count inv t) as (Q1 & Q2 & Q3). rewrite Q1, Q2, Q3.
    destruct (held_none p t N) as [N1 N2].
    repeat split; try lia. intro K. specialize (H7 K). lia.
  - destruct (exhale_all_count _ _ _ _ _ t E) as (H1 & H2 & H3 & H4 & H5 & H6 & H7).
    destruct (inhale_all_count inv (f_perms g) t) as (Q1 & Q2 & Q3). rewrite Q1, Q2, Q3.
    destruct (held_none p t N) as [N1 N2].
    repeat split; try lia. intro K. specialize (H7 K). lia.
  - unfold held. cbn [add_perms bounded unbounded credit]. lia.
Qed.

Lemma total_snoc f evs ev : total f (evs ++ [ev]) = total f evs + f ev.
Proof.
  unfold total. induction evs as [|e evs IH]; cbn [app fold_right]; [lia|]. rewrite IH. lia.
Qed.

Theorem run_count k evs s0 s t : run k evs s0 s -> start s0 ->
  total (brings t) evs <= all_held s t + total (fulfils t) evs /\
  all_held s t + all_credit s t + total (fulfils t) evs <=
    total (brings t) evs + total (brings_credit t) evs /\
  all_unbounded s t + all_credit s t + total (hands_fresh t) evs <=
    total (brings_fresh t) evs + total (brings_credit t) evs /\
  (k = Release -> all_held s t + total (fulfils t) evs = total (brings t) evs).
Proof.
  intro R. induction R as [s|evs ev s s1 s2 R IH St]; intro S0.
  - destruct S0 as (m & b & ->). unfold total, all_held, all_credit, all_unbounded, held; simpl.
    repeat split; auto.
  - rewrite !total_snoc. apply step_count with (t := t) in St.
    destruct (IH S0) as (H1 & H2 & H3 & H4). destruct St as (Q1 & Q2 & Q3 & Q4).
    repeat split; try lia. intro K. specialize (H4 K). specialize (Q4 K). lia.
Qed.

(* Suspended activations. *)
Definition waiting_ok (s : stack) : Prop :=
  match s with
  | [] => True
  | _ :: rest => forall f b, In (f, b) rest -> b = true \/ no_leak (f_perms f)
  end.

Lemma step_waiting k ev s s' : step k ev s s' -> waiting_ok s -> waiting_ok s'.
Proof.
  intros St W. destruct St as [pre promise f b rest p Pos E L|post f b p g c rest FL E N
    |pre post promise f b rest p Pos E L|inv promise f b rest p Pos E L
    |inv f b p mm rest FL Pos E N|inv f b p mm g c rest FL E N|f b mm g c rest FL];
    cbn [waiting_ok] in *; intros f' b' M; auto.
  - destruct M as [M|M]; [injection M as <- <-; exact L|auto].
  - apply W. right. exact M.
  - destruct M as [M|M]; [injection M as <- <-; exact L|auto].
  - apply W. right. exact M.
  - apply W. right. exact M.
Qed.

Theorem run_waiting k evs s0 s : run k evs s0 s -> start s0 ->
  forall top rest, s = top :: rest -> forall f b, In (f, b) rest -> b = true \/ no_leak (f_perms f).
Proof.
  intros R S0. assert (waiting_ok s) as W.
  { induction R as [s|evs ev s s1 s2 R IH St].
    - destruct S0 as (m & b & ->). cbn. tauto.
    - eapply step_waiting; eauto. }
  intros top rest -> f b M. exact (W f b M).
Qed.

Theorem all_fulfilled k evs s0 f b t : run k evs s0 [(f, b)] -> start s0 -> no_leak (f_perms f) ->
  total (brings t) evs <= total (fulfils t) evs.
Proof.
  intros R S0 N. destruct (run_count k evs s0 _ t R S0) as (H & _).
  unfold all_held in H. cbn [sum_over] in H. destruct (held_none _ t N) as [N1 _]. lia.
Qed.

(* Handing on. *)
Lemma exhale_use_bounded k mm x p q t : exhale_use k (Some mm) x p = Some q ->
  bounded q t <= bounded p t /\
  (bounded q t < bounded p t -> exists m, x = Measured t m /\ measure_check mm t m = true).
Proof.
  intro H. apply exhale_use_takes in H as (r & H & T).
  pose proof (exhale_perm _ _ _ _ H RBounded t) as E. cbn [perm_of] in E.
  split; [lia|]. intro L.
  destruct r; cbn [pick] in E; try lia.
  destruct x as [t'|t' m|t']; cbn [takes target] in *; try contradiction.
  destruct (Z.eq_dec t' t) as [->|N]; [eauto|]. rewrite one_other in E by auto. lia.
Qed.

Lemma exhale_all_bounded k mm l : forall p q t, exhale_all k (Some mm) l p = Some q ->
  bounded q t <= bounded p t /\
  (bounded q t < bounded p t -> exists m, In (Measured t m) l /\ measure_check mm t m = true).
Proof.
  induction l as [|x l IH]; intros p q t H.
  - cbn in H. injection H as <-. split; [lia|]. lia.
  - cbn [exhale_all] in H. destruct (exhale_use k (Some mm) x p) as [p1|] eqn:E; [|discriminate].
    destruct (IH p1 q t H) as [H1 H2]. destruct (exhale_use_bounded k mm x p p1 t E) as [E1 E2].
    split; [lia|]. intro L. destruct (le_lt_dec (bounded p t) (bounded p1 t)) as [G|G].
    + destruct H2 as (m & M & C); [lia|]. exists m. simpl; auto.
    + destruct (E2 G) as (m & -> & C). exists m. simpl; auto.
Qed.

Definition has (mm : list entry) (t v : Z) : Prop :=
  In {| e_guard := true; e_key := t; e_value := v |} mm.

Lemma has_map_of l t m : In (Measured t m) l <-> has (map_of l) t m.
Proof.
  unfold has, map_of. rewrite in_flat_map. split.
  - intro M. exists (Measured t m). split; auto. left. reflexivity.
  - intros (x & M & H). destruct x as [t'|t' m'|t']; try destruct H.
    + injection H as <- <-. exact M.
    + destruct H.
Qed.

Lemma positive_in l t m : all_positive l = true -> In (Measured t m) l -> (0 < m)%Z.
Proof.
  unfold all_positive. rewrite forallb_forall. intros H M. apply Z.ltb_lt, (H _ M).
Qed.

Lemma no_chain (R : frame -> frame -> Prop) (mapof : frame -> list entry) t :
  (forall f g, R f g -> exists m, has (mapof g) t m /\ (0 < m)%Z /\
     forall v, has (mapof f) t v -> (m < v)%Z) ->
  ~ exists f : nat -> frame, forall i, R (f i) (f (S i)).
Proof.
  intros H (f & Hf).
  assert (forall n i v, has (mapof (f i)) t v -> (v <= Z.of_nat n)%Z -> False) as A.
  { induction n as [|n IH]; intros i v Hv L.
    - destruct (H _ _ (Hf i)) as (m & _ & Pm & Lt). specialize (Lt v Hv). lia.
    - destruct (H _ _ (Hf i)) as (m & Hm & Pm & Lt). specialize (Lt v Hv).
      apply (IH (S i) m Hm). lia. }
  destruct (H _ _ (Hf 0)) as (m & Hm & Pm & _).
  apply (A (Z.to_nat m) 1 m Hm). lia.
Qed.

Theorem no_call_chain k t : ~ exists f : nat -> frame, forall i, hands_on k t (f i) (f (S i)).
Proof.
  apply no_chain with (mapof := f_map) (t := t).
  intros f g (pre & p & Pos & E & L & G).
  destruct (exhale_all_bounded _ _ _ _ _ t E) as [_ H]. destruct (H L) as (m & M & C).
  exists m. split; [rewrite G; apply has_map_of, M|]. split; [eapply positive_in; eauto|].
  intros v Hv. rewrite measure_check_spec in C. apply (C _ Hv); reflexivity.
Qed.

Theorem no_iteration_chain k t :
  ~ exists f : nat -> frame, forall i, iterates_on k t (f i) (f (S i)).
Proof.
  apply no_chain with (mapof := fun f => match f_loop f with Some mm => mm | None => [] end) (t := t).
  intros f g (inv & p & mm & FL & Pos & E & L & G). rewrite FL, G.
  destruct (exhale_all_bounded _ _ _ _ _ t E) as [_ H]. destruct (H L) as (m & M & C).
  exists m. split; [apply has_map_of, M|]. split; [eapply positive_in; eauto|].
  intros v Hv. rewrite measure_check_spec in C. apply (C _ Hv); reflexivity.
Qed.
