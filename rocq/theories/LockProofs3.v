(** Proofs for C59, part 3: steps. *)
From Coq Require Import List Bool Arith ZArith QArith Lqa Lia.
From Verif Require Import LockModel LockSpec LockProofs LockProofs2.
Import ListNotations.
Local Open Scope nat_scope.

Lemma update_same {A} (l : list A) i d : update l i (nth i l d) = l.
Proof. revert i. induction l as [|x l IH]; intros [|i]; cbn; auto. now rewrite IH. Qed.

Section Steps.
  Variable sub : nat -> nat -> bool.
  Variable F : family.
  Hypothesis FR : framed F.

  Notation Inv := (Inv sub F).
  Notation good_act := (good_act sub F).
  Notation amt := (amt sub F).
  Notation okk := (okk sub F).
  Notation weight := (weight).

  Lemma fold_spec st a k q a' b : good_act st a ->
    exec1 sub F (s_heap st) (s_locks st) a (Fold k q) a' b ->
    b = true /\ okk st k = true /\ good_act st a' /\
    (forall l, (a_perm a' (RF l) == a_perm a (RF l) - q * amt st k l)%Q) /\
    (forall k', (a_perm a' (RInv k') == a_perm a (RInv k') + (if k =? k' then q else 0))%Q) /\
    (forall k', a_perm a' (RRelB k') = a_perm a (RRelB k') /\ a_perm a' (RRelU k') = a_perm a (RRelU k')).
  Proof.
    intros G X. inversion X as [k0 q0 Q0 H LE E1 E2 E3| | | |]; subst. clear X. pose proof G as (G1 & G2 & G3).
    change (inv_of sub F (s_locks st) k) with (invk sub F st k) in *. change (obj_of (s_locks st) k) with (objk st k) in *.
    set (v := a_view a) in *.
    assert (W : welldef (objk st k) v (fun _ => 0%Q) (invk sub F st k) = true) by (apply body_welldef; [exact FR|intros; lra]).
    assert (NN : forall l, (0 <= amounts (objk st k) v (invk sub F st k) l)%Q) by (exact (amounts_nonneg _ _ _ _ W H)).
    assert (VH : forall l, (0 < amounts (objk st k) v (invk sub F st k) l)%Q -> s_heap st l = v l).
    { intros l P. symmetry. apply G2. specialize (LE l).
      assert (M : (0 < q * amounts (objk st k) v (invk sub F st k) l)%Q) by (now apply Qmult_lt_0_compat). lra. }
    destruct (frame (objk st k) v (s_heap st) (invk sub F st k) (fun _ => 0%Q)) as (AM & HH); [intros; lra|exact W|exact H|intros l P; apply VH; lra|].
    assert (AE : forall l, amounts (objk st k) v (invk sub F st k) l = amt st k l) by (intros l; symmetry; apply AM).
    split; [reflexivity|]. split; [exact HH|]. split; [|split; [|split]].
    - split; [|split]; cbn [a_perm a_view a_snap].
      + intros [l|k'|k'|k']; [specialize (LE l); lra| |apply G1|apply G1]. pose proof (G1 (RInv k')). destruct (k =? k'); lra.
      + intros l P. apply G2. pose proof (NN l) as NL.
        assert (M : (0 <= q * amounts (objk st k) v (invk sub F st k) l)%Q) by (apply Qmult_le_0_compat; lra). lra.
      + intros k' P l A. destruct (Nat.eqb_spec k k') as [E|D]; cbn.
        * subst k'. destruct (has (a_perm a) (RInv k)) eqn:HP; cbn; [apply has_pos in HP; exact (G3 k HP l A)|].
          symmetry. apply VH. rewrite AE. exact A.
        * exact (G3 k' P l A).
    - intros l. cbn. rewrite AE. lra.
    - intros k'. cbn. destruct (k =? k'); lra.
    - intros k'. split; reflexivity.
  Qed.

  Lemma unfold_spec st a k q a' b : good_act st a -> okk st k = true ->
    exec1 sub F (s_heap st) (s_locks st) a (Unfold k q) a' b ->
    b = true /\ good_act st a' /\ (0 < q)%Q /\ (q <= a_perm a (RInv k))%Q /\
    (forall l, (a_perm a' (RF l) == a_perm a (RF l) + q * amt st k l)%Q) /\
    (forall k', (a_perm a' (RInv k') == a_perm a (RInv k') - (if k =? k' then q else 0))%Q) /\
    (forall k', a_perm a' (RRelB k') = a_perm a (RRelB k') /\ a_perm a' (RRelU k') = a_perm a (RRelU k')).
  Proof.
    intros G OK X. inversion X as [|k0 q0 Q0 LE v1 E1 E2 E3| | |]; subst. clear X. pose proof G as (G1 & G2 & G3).
    try (subst v1). set (v0 := refresh (inside sub F (s_heap st) (s_locks st) k a) a) in *.
    change (inv_of sub F (s_locks st) k) with (invk sub F st k) in *. change (obj_of (s_locks st) k) with (objk st k) in *.
    assert (RP : (0 < a_perm a (RInv k))%Q) by lra.
    destruct (frame_k sub F FR st k (a_snap a k) OK (G3 k RP)) as (AS & _).
    assert (VH : forall l, v0 l = s_heap st l).
    { intros l. unfold v0, refresh. destruct (has (a_perm a) (RF l)) eqn:HP; [apply has_pos in HP; auto|].
      unfold inside. change (inv_of sub F (s_locks st) k) with (invk sub F st k). change (obj_of (s_locks st) k) with (objk st k).
      rewrite AS. destruct (negb _) eqn:P; [|reflexivity]. apply qpos in P. exact (G3 k RP l P). }
    destruct (frame_k sub F FR st k v0 OK) as (AV & HV); [intros l _; apply VH|].
    split; [exact HV|]. split; [|split; [exact Q0|split; [exact LE|split; [|split]]]].
    - split; [|split]; cbn [a_perm a_view a_snap].
      + intros [l|k'|k'|k']; [|pose proof (G1 (RInv k')); destruct (Nat.eqb_spec k k') as [E|D]; [subst|]; lra|apply G1|apply G1].
        rewrite AV. pose proof (G1 (RF l)). pose proof (amt_nonneg sub F FR st k l OK) as A0.
        assert (M : (0 <= q * amt st k l)%Q) by (apply Qmult_le_0_compat; lra). lra.
      + intros l _. apply VH.
      + intros k' P. apply G3. destruct (k =? k'); lra.
    - intros l. cbn. rewrite AV. lra.
    - intros k'. cbn. destruct (k =? k'); lra.
    - intros k'. split; reflexivity.
  Qed.

  Lemma set_lock_same st k : set_lock st k (lock_of st k) = st.
  Proof. destruct st as [h n ks acts]. unfold set_lock, lock_of. cbn. now rewrite update_same. Qed.

  Lemma weight_pos st i k : Inv st -> (0 < a_perm (act_of st i) (RInv k))%Q -> (0 < LockProofs2.weight st k)%Q.
  Proof.
    intros I P. unfold LockProofs2.weight, tot. pose proof (total_ge (s_acts st) i (RInv k) (inv_nonneg sub F st I)) as T.
    pose proof (freeq_nonneg (lock_of st k)). unfold act_of in P. lra.
  Qed.

  Lemma inv_fold st i k q a' b : Inv st -> i < length (s_acts st) -> k < length (s_locks st) ->
    exec1 sub F (s_heap st) (s_locks st) (act_of st i) (Fold k q) a' b -> b = true /\ Inv (set_act st i a').
  Proof.
    intros I LI LK X. destruct (fold_spec st _ k q a' b (i_acts sub F st I i) X) as (-> & OK & G & P1 & P2 & P3).
    split; [reflexivity|]. rewrite <- (set_lock_same st k).
    apply inv_change; auto.
    - intros l. rewrite P1, P2, Nat.eqb_refl.
      assert (E : ((a_perm (act_of st i) (RInv k) + q + freeq (lock_of st k)) * amt st k l ==
                   q * amt st k l + (a_perm (act_of st i) (RInv k) + freeq (lock_of st k)) * amt st k l)%Q) by ring. lra.
    - intros k' D. rewrite P2. apply Nat.eqb_neq in D. rewrite Nat.eqb_sym in D. rewrite D. lra.
    - intros k'. destruct (P3 k') as (-> & ->). lra.
    - exact (i_ready sub F st I k).
  Qed.

  Lemma inv_unfold st i k q a' b : Inv st -> i < length (s_acts st) -> k < length (s_locks st) ->
    exec1 sub F (s_heap st) (s_locks st) (act_of st i) (Unfold k q) a' b -> b = true /\ Inv (set_act st i a').
  Proof.
    intros I LI LK X.
    assert (OK : okk st k = true).
    { apply (i_holds sub F st I k LK). apply (weight_pos st i k I). inversion X; subst. lra. }
    destruct (unfold_spec st _ k q a' b (i_acts sub F st I i) OK X) as (-> & G & Q0 & LE & P1 & P2 & P3).
    split; [reflexivity|]. rewrite <- (set_lock_same st k).
    apply inv_change; auto.
    - intros l. rewrite P1, P2, Nat.eqb_refl.
      assert (E : ((a_perm (act_of st i) (RInv k) - q + freeq (lock_of st k)) * amt st k l ==
                   - (q * amt st k l) + (a_perm (act_of st i) (RInv k) + freeq (lock_of st k)) * amt st k l)%Q) by ring. lra.
    - intros k' D. rewrite P2. apply Nat.eqb_neq in D. rewrite Nat.eqb_sym in D. rewrite D. lra.
    - intros k'. destruct (P3 k') as (-> & ->). lra.
    - exact (i_ready sub F st I k).
  Qed.

  Lemma inv_add_lock st C obj : Inv st -> Inv (St (s_heap st) (s_next st) (s_locks st ++ [Lk C obj false false]) (s_acts st)).
  Proof.
    intros I. set (st' := St _ _ _ _). set (n := length (s_locks st)).
    assert (LOCK : forall k, k <> n -> lock_of st' k = lock_of st k).
    { intros k D. unfold lock_of, st'. cbn. destruct (Nat.lt_ge_cases k n) as [L|L]; [now rewrite app_nth1|].
      rewrite !nth_overflow; auto; rewrite ?app_length; cbn; unfold n in *; lia. }
    assert (LOCKN : lock_of st' n = Lk C obj false false).
    { unfold lock_of, st'. cbn. rewrite app_nth2 by lia. now rewrite Nat.sub_diag. }
    assert (LN : lock_of st n = Lk 0 0 false false) by (unfold lock_of; now rewrite nth_overflow by lia).
    assert (FN : forall k, freeq (lock_of st' k) = freeq (lock_of st k)).
    { intros k. destruct (Nat.eq_dec k n) as [->|D]; [now rewrite LOCKN, LN|now rewrite LOCK]. }
    assert (TN : forall k, k_taken (lock_of st' k) = k_taken (lock_of st k)).
    { intros k. destruct (Nat.eq_dec k n) as [->|D]; [now rewrite LOCKN, LN|now rewrite LOCK]. }
    assert (WT : forall k, LockProofs2.weight st' k = LockProofs2.weight st k) by (intros k; unfold LockProofs2.weight; now rewrite FN).
    assert (WN : (LockProofs2.weight st n == 0)%Q).
    { pose proof (weight_nonneg st n (inv_nonneg sub F st I)). unfold LockProofs2.weight in *. rewrite LN in *.
      pose proof (i_fresh sub F st I n ltac:(lia)). unfold freeq in *. cbn in *. lra. }
    assert (INN : forall l, (inner sub F st' l == inner sub F st l)%Q).
    { intros l. unfold inner. unfold st' at 1. cbn [s_locks]. rewrite app_length, Nat.add_1_r. cbn [sumk]. rewrite WT.
      change (length (s_locks st)) with n. rewrite WN.
      rewrite (sumk_ext n _ (fun k => (LockProofs2.weight st k * amt st k l)%Q)); [lra|].
      intros k L. rewrite WT. unfold LockProofs2.amt, objk, invk. rewrite LOCK by lia. reflexivity. }
    assert (ZN : forall i, (a_perm (act_of st i) (RInv n) <= 0)%Q).
    { intros i. pose proof (total_ge (s_acts st) i (RInv n) (inv_nonneg sub F st I)). pose proof (i_fresh sub F st I n ltac:(lia)). unfold tot, act_of in *. lra. }
    constructor.
    - intros i. destruct (i_acts sub F st I i) as (G1 & G2 & G3). split; [exact G1|]. split; [exact G2|].
      intros k P l A. change (act_of st' i) with (act_of st i) in *.
      destruct (Nat.eq_dec k n) as [->|D]; [specialize (ZN i); lra|]. apply (G3 k P l). unfold LockProofs2.amt, objk, invk in *.
      rewrite LOCK in A by exact D. exact A.
    - intros l. rewrite INN. exact (i_tot sub F st I l).
    - intros l L. rewrite INN. exact (i_new sub F st I l L).
    - intros k L P. rewrite WT in P. destruct (Nat.eq_dec k n) as [->|D]; [lra|].
      unfold LockProofs2.okk, objk, invk. rewrite LOCK by exact D. apply (i_holds sub F st I k); [|exact P].
      unfold st' in L. cbn in L. rewrite app_length in L. cbn in L. unfold n in D. lia.
    - intros k. rewrite TN. exact (i_rel sub F st I k).
    - intros k L. unfold st' in L. cbn in L. rewrite app_length in L. cbn in L. exact (i_fresh sub F st I k ltac:(lia)).
    - intros k. rewrite TN. intros T. destruct (Nat.eq_dec k n) as [->|D]; [rewrite LN in T; discriminate|].
      rewrite LOCK by exact D. exact (i_ready sub F st I k T).
  Qed.

  Lemma set_act_twice st i a a' : set_act (set_act st i a) i a' = set_act st i a'.
  Proof.
    destruct st as [h n ks acts]. unfold set_act. cbn. f_equal. revert i. induction acts as [|x l IH]; intros [|i]; cbn; auto. now rewrite IH.
  Qed.

  (** Lock.__init__: the invariant is given up. *)
  Lemma inv_init st i k a' b : Inv st -> i < length (s_acts st) -> k < length (s_locks st) -> k_ready (lock_of st k) = false ->
    exec sub F (s_heap st) (s_locks st) (act_of st i) (init_code k) a' b ->
    b = true /\ Inv (set_act (set_lock st k (Lk (k_class (lock_of st k)) (k_obj (lock_of st k)) true false)) i a').
  Proof.
    intros I LI LK RDY X. inversion X as [|a0 c a1 b1 cs a2 b2 X1 X2]; subst. inversion X2; subst. inversion X1 as [| | |r q LE|]; subst.
    assert (TK : k_taken (lock_of st k) = false).
    { destruct (k_taken (lock_of st k)) eqn:T; [|reflexivity]. apply (i_ready sub F st I) in T. congruence. }
    split; [reflexivity|]. apply inv_change; auto.
    - apply good_lose; [apply (i_acts sub F st I)|lra|exact LE].
    - intros l. cbn [lose a_perm]. unfold minus. cbn [res_eqb]. rewrite Nat.eqb_refl. unfold freeq. rewrite RDY. cbn [k_ready k_taken andb negb].
      set (p := a_perm (act_of st i) (RInv k)). set (m := amt st k l). set (f := a_perm _ _).
      assert (E : ((p - 1 + 1) * m == (p + 0) * m)%Q) by ring. lra.
    - intros k' D. cbn. apply Nat.eqb_neq in D. rewrite Nat.eqb_sym in D. unfold minus. cbn. rewrite D. lra.
    - apply (i_holds sub F st I k LK). apply (weight_pos st i k I). lra.
    - intros k'. cbn. rewrite TK. rewrite !andb_false_r. unfold minus. cbn. lra.
  Qed.

  Lemma inv_acquire st i k a' b : Inv st -> i < length (s_acts st) -> k < length (s_locks st) ->
    k_ready (lock_of st k) = true -> k_taken (lock_of st k) = false ->
    exec sub F (s_heap st) (s_locks st) (act_of st i) (acquire_code k) a' b ->
    b = true /\ Inv (set_act (set_lock st k (Lk (k_class (lock_of st k)) (k_obj (lock_of st k)) true true)) i a').
  Proof.
    intros I LI LK RDY TK X.
    inversion X as [|a0 c a1 b1 cs a2 b2 X1 X2]; subst. clear X. inversion X1; subst. clear X1.
    inversion X2 as [|a0 c a1 b1 cs a3 b3 X1 X3]; subst. clear X2. inversion X1; subst. clear X1.
    inversion X3 as [|a0 c a1 b1 cs a4 b4 X1 X4]; subst. clear X3. inversion X4; subst. clear X4.
    assert (OK : okk st k = true).
    { apply (i_holds sub F st I k LK). unfold LockProofs2.weight, freeq. rewrite RDY, TK. cbn.
      pose proof (total_nonneg (s_acts st) (RInv k) (inv_nonneg sub F st I)). unfold tot. lra. }
    set (a := act_of st i) in *.
    assert (G : good_act st a) by (apply (i_acts sub F st I)).
    assert (G2 : good_act st (gain (s_heap st) (gain (s_heap st) a (RInv k) 1) (RRelU k) 1)).
    { apply good_gain; [apply good_gain; [exact G|lra]|lra]. }
    destruct (unfold_spec st _ k 1 a' b1 G2 OK X1) as (-> & G' & _ & _ & P1 & P2 & P3).
    split; [reflexivity|]. apply inv_change; auto.
    - intros l. rewrite P1, P2, Nat.eqb_refl, !gain_perm. unfold plus. cbn [res_eqb a_perm]. rewrite !gain_perm. unfold plus. cbn [res_eqb]. rewrite Nat.eqb_refl.
      unfold freeq. rewrite RDY, TK. cbn [k_ready k_taken andb negb].
      fold a. set (p := a_perm a (RInv k)). set (m := amt st k l). set (f := a_perm a (RF l)).
      assert (E : ((p + 1 - 1 + 0) * m == p * m)%Q) by ring. assert (E' : ((p + 1) * m == p * m + m)%Q) by ring. lra.
    - intros k' D. rewrite P2, gain_perm. unfold plus. cbn [res_eqb]. rewrite gain_perm. unfold plus. cbn [res_eqb].
      apply Nat.eqb_neq in D. rewrite Nat.eqb_sym in D. rewrite D. fold a. lra.
    - intros k'. destruct (P3 k') as (-> & ->). rewrite !gain_perm. unfold plus. cbn [res_eqb]. rewrite !gain_perm. unfold plus. cbn [res_eqb].
      rewrite TK. cbn [k_taken]. rewrite andb_false_r, andb_true_r. rewrite (Nat.eqb_sym k k'). fold a. destruct (k' =? k); lra.
  Qed.

  Lemma rel_res_cases p k : rel_res p k = RRelB k \/ rel_res p k = RRelU k.
  Proof. unfold rel_res. destruct (negb _); auto. Qed.

  Lemma rel_taken st i k r : Inv st -> r = RRelB k \/ r = RRelU k -> (1 <= a_perm (act_of st i) r)%Q -> k_taken (lock_of st k) = true.
  Proof.
    intros I R P. pose proof (inv_nonneg sub F st I) as N. pose proof (i_rel sub F st I k) as B.
    pose proof (total_ge (s_acts st) i (RRelB k) N) as T1. pose proof (total_ge (s_acts st) i (RRelU k) N) as T2.
    pose proof (total_nonneg (s_acts st) (RRelB k) N) as T3. pose proof (total_nonneg (s_acts st) (RRelU k) N) as T4. unfold tot, act_of in *.
    destruct (k_taken (lock_of st k)); [reflexivity|]. destruct R as [-> | ->]; lra.
  Qed.

  Lemma inv_release st i k a' b : Inv st -> i < length (s_acts st) -> k < length (s_locks st) ->
    exec sub F (s_heap st) (s_locks st) (act_of st i) (release_code k) a' b ->
    k_taken (lock_of st k) = true /\ b = true /\
    Inv (set_act (set_lock st k (Lk (k_class (lock_of st k)) (k_obj (lock_of st k)) (k_ready (lock_of st k)) false)) i a').
  Proof.
    intros I LI LK X.
    inversion X as [|a0 c a1 b1 cs a2 b2 X1 X2]; subst. clear X.
    inversion X2 as [|a0 c a3 b3 cs a4 b4 X3 X4]; subst. clear X2.
    inversion X4 as [|a0 c a5 b5 cs a6 b6 X5 X6]; subst. clear X4. inversion X6; subst. clear X6.
    destruct (fold_spec st _ k 1 a1 b1 (i_acts sub F st I i) X1) as (-> & OK & G1 & P1 & P2 & P3).
    inversion X3 as [| | | |k0 LE]; subst. inversion X5 as [| | |r q LE2|]; subst. clear X1 X3 X5.
    set (a := act_of st i) in *.
    set (rr := rel_res (a_perm a1) k) in *.
    assert (RR : rr = RRelB k \/ rr = RRelU k) by apply rel_res_cases.
    assert (GR : (1 <= a_perm a rr)%Q).
    { destruct (P3 k) as (E1 & E2). destruct RR as [E|E]; rewrite E in *; [rewrite <- E1|rewrite <- E2]; exact LE. }
    assert (TK : k_taken (lock_of st k) = true) by (exact (rel_taken st i k rr I RR GR)).
    assert (RDY : k_ready (lock_of st k) = true) by (exact (i_ready sub F st I k TK)).
    assert (E1 : forall r, (a_perm (lose (lose a1 rr 1) (RInv k) 1) r ==
                  a_perm a1 r - (if res_eqb rr r then 1 else 0) - (if res_eqb (RInv k) r then 1 else 0))%Q).
    { intros r. cbn [lose a_perm]. rewrite minus_at. rewrite minus_at. lra. }
    assert (RF1 : forall l, res_eqb rr (RF l) = false) by (intros l; destruct RR as [-> | ->]; reflexivity).
    assert (RI1 : forall k', res_eqb rr (RInv k') = false) by (intros k'; destruct RR as [-> | ->]; reflexivity).
    split; [exact TK|]. split; [reflexivity|]. apply inv_change; auto.
    - apply good_lose; [apply good_lose; [exact G1|lra|exact LE]|lra|exact LE2].
    - intros l. rewrite !E1, P1, P2, Nat.eqb_refl, RF1, RI1. cbn [res_eqb]. rewrite Nat.eqb_refl. unfold freeq. rewrite RDY, TK. cbn [k_ready k_taken andb negb].
      fold a. set (p := a_perm a (RInv k)). set (m := amt st k l). set (f := a_perm a (RF l)).
      assert (E : ((p + 1 - 0 - 1 + 1) * m == p * m + m)%Q) by ring. assert (E' : ((p + 0) * m == p * m)%Q) by ring. lra.
    - intros k' D. rewrite E1, P2, RI1. cbn [res_eqb]. apply Nat.eqb_neq in D. rewrite Nat.eqb_sym in D. rewrite D. fold a. lra.
    - intros k'. rewrite !E1. cbn [res_eqb]. destruct (P3 k') as (-> & ->). cbn [k_taken]. rewrite TK, andb_true_r, andb_false_r. fold a.
      destruct RR as [-> | ->]; cbn [res_eqb]; rewrite (Nat.eqb_sym k k'); destruct (k' =? k); lra.
  Qed.
End Steps.
