(** Proofs for C59, part 2: the invariant of executions. *)
From Coq Require Import List Bool Arith ZArith QArith Lqa Lia.
From Verif Require Import LockModel LockSpec LockProofs.
Import ListNotations.
Local Open Scope nat_scope.

Lemma res_eqb_eq a b : res_eqb a b = true <-> a = b.
Proof.
  destruct a, b; cbn; try (split; [discriminate|intros E; discriminate E]).
  - rewrite loc_eqb_eq. split; [intros ->|intros E; inversion E]; auto.
  - rewrite Nat.eqb_eq. split; [intros ->|intros E; inversion E]; auto.
  - rewrite Nat.eqb_eq. split; [intros ->|intros E; inversion E]; auto.
  - rewrite Nat.eqb_eq. split; [intros ->|intros E; inversion E]; auto.
Qed.

Lemma plus_at p r q r' : (plus p r q r' == p r' + (if res_eqb r r' then q else 0))%Q.
Proof. unfold plus. destruct (res_eqb r r'); lra. Qed.

Lemma minus_at p r q r' : (minus p r q r' == p r' - (if res_eqb r r' then q else 0))%Q.
Proof. unfold minus. destruct (res_eqb r r'); lra. Qed.

Lemma has_pos p r : has p r = true <-> (0 < p r)%Q.
Proof. apply qpos. Qed.

Lemma has_false p r : has p r = false -> (p r <= 0)%Q.
Proof. intros H. destruct (Qlt_le_dec 0 (p r)) as [L|L]; [apply has_pos in L; congruence|exact L]. Qed.

Section Inv.
  Variable sub : nat -> nat -> bool.
  Variable F : family.
  Hypothesis FR : framed F.

  Definition invk (st : state) (k : nat) : asn := body sub F (k_class (lock_of st k)).
  Definition objk (st : state) (k : nat) : Z := k_obj (lock_of st k).
  Definition amt (st : state) (k : nat) (l : loc) : Q := amounts (objk st k) (s_heap st) (invk st k) l.
  Definition okk (st : state) (k : nat) : bool := holds (objk st k) (s_heap st) (invk st k).

  Definition freeq (x : lock) : Q := if k_ready x && negb (k_taken x) then 1%Q else 0%Q.
  Definition tot (st : state) (r : res) : Q := total (s_acts st) r.
  Definition weight (st : state) (k : nat) : Q := (tot st (RInv k) + freeq (lock_of st k))%Q.
  Definition inner (st : state) (l : loc) : Q := sumk (length (s_locks st)) (fun k => (weight st k * amt st k l)%Q).

  Definition agrees (st : state) (k : nat) (v : heap) : Prop := forall l, (0 < amt st k l)%Q -> v l = s_heap st l.

  Definition good_act (st : state) (a : act) : Prop :=
    (forall r, (0 <= a_perm a r)%Q) /\
    (forall l, (0 < a_perm a (RF l))%Q -> a_view a l = s_heap st l) /\
    (forall k, (0 < a_perm a (RInv k))%Q -> agrees st k (a_snap a k)).

  Record Inv (st : state) : Prop := {
    i_acts : forall i, good_act st (act_of st i);
    i_tot : forall l, (tot st (RF l) + inner st l <= 1)%Q;
    i_new : forall l, (s_next st <= fst l)%Z -> (tot st (RF l) + inner st l <= 0)%Q;
    i_holds : forall k, k < length (s_locks st) -> (0 < weight st k)%Q -> okk st k = true;
    i_rel : forall k, (tot st (RRelB k) + tot st (RRelU k) <= if k_taken (lock_of st k) then 1 else 0)%Q;
    i_fresh : forall k, length (s_locks st) <= k -> (tot st (RInv k) <= 0)%Q;
    i_ready : forall k, k_taken (lock_of st k) = true -> k_ready (lock_of st k) = true }.

  Lemma inv_nonneg st : Inv st -> nonneg (s_acts st).
  Proof. intros I i r. exact (proj1 (i_acts st I i) r). Qed.

  Lemma freeq_nonneg x : (0 <= freeq x)%Q.
  Proof. unfold freeq. destruct (_ && _); lra. Qed.

  Lemma weight_nonneg st k : nonneg (s_acts st) -> (0 <= weight st k)%Q.
  Proof.
    intros N. unfold weight, tot. pose proof (total_nonneg (s_acts st) (RInv k) N). pose proof (freeq_nonneg (lock_of st k)). lra.
  Qed.

  Lemma amt_nonneg st k l : okk st k = true -> (0 <= amt st k l)%Q.
  Proof.
    intros H. apply (amounts_nonneg (objk st k) (s_heap st) (invk st k) (fun _ => 0%Q)); [|exact H].
    apply body_welldef; [exact FR|intros; lra].
  Qed.

  Lemma wamt_nonneg st k l : Inv st -> k < length (s_locks st) -> (0 <= weight st k * amt st k l)%Q.
  Proof.
    intros I L. pose proof (weight_nonneg st k (inv_nonneg st I)) as W. destruct (Qlt_le_dec 0 (weight st k)) as [P|P].
    - apply Qmult_le_0_compat; [exact W|]. exact (amt_nonneg st k l (i_holds st I k L P)).
    - assert (E : (weight st k == 0)%Q) by lra. rewrite E. lra.
  Qed.

  Lemma inner_nonneg st l : Inv st -> (0 <= inner st l)%Q.
  Proof. intros I. apply sumk_nonneg. intros k L. exact (wamt_nonneg st k l I L). Qed.

  Lemma inner_ge st k l : Inv st -> k < length (s_locks st) -> (weight st k * amt st k l <= inner st l)%Q.
  Proof. intros I L. apply (sumk_ge (length (s_locks st)) (fun k => (weight st k * amt st k l)%Q)); [exact L|]. intros k' L'. exact (wamt_nonneg st k' l I L'). Qed.

  (** A heap that agrees with the actual one on what a valid invariant protects gives the
      invariant the same meaning. *)
  Lemma frame_k st k v : okk st k = true -> agrees st k v ->
    (forall l, amounts (objk st k) v (invk st k) l = amt st k l) /\ holds (objk st k) v (invk st k) = true.
  Proof.
    intros H A. apply (frame (objk st k) (s_heap st) v (invk st k) (fun _ => 0%Q)); [intros; lra| |exact H|].
    - apply body_welldef; [exact FR|intros; lra].
    - intros l P. apply A. unfold amt. lra.
  Qed.

  (** ** Changing activations only *)
  Lemma inv_acts st acts : Inv st ->
    (forall i, good_act st (nth i acts no_act)) ->
    (forall l, (total acts (RF l) <= tot st (RF l))%Q) ->
    (forall k, (total acts (RInv k) <= tot st (RInv k))%Q) ->
    (forall k, (total acts (RRelB k) + total acts (RRelU k) <= tot st (RRelB k) + tot st (RRelU k))%Q) ->
    Inv (St (s_heap st) (s_next st) (s_locks st) acts).
  Proof.
    intros I G T1 T2 T3. set (st' := St _ _ _ _).
    assert (N : nonneg acts) by (intros i r; exact (proj1 (G i) r)).
    assert (W : forall k, (weight st' k <= weight st k)%Q) by (intros k; unfold weight, tot; cbn; specialize (T2 k); unfold tot in T2; unfold lock_of; cbn; lra).
    assert (INN : forall l, (inner st' l <= inner st l)%Q).
    { intros l. unfold inner. cbn [s_locks st']. apply sumk_le. intros k L. change (amt st' k l) with (amt st k l).
      destruct (Qlt_le_dec 0 (weight st k)) as [P|P].
      - pose proof (amt_nonneg st k l (i_holds st I k L P)) as A. specialize (W k).
        rewrite (Qmult_comm (weight st' k)), (Qmult_comm (weight st k)). apply Qmult_le_compat_nonneg; split; try lra.
        exact (weight_nonneg st' k N).
      - pose proof (weight_nonneg st' k N). specialize (W k). assert (E : (weight st' k == 0)%Q) by lra. assert (E' : (weight st k == 0)%Q) by lra.
        rewrite E, E'. lra. }
    constructor.
    - exact G.
    - intros l. pose proof (i_tot st I l). specialize (T1 l). specialize (INN l). change (tot st' (RF l)) with (total acts (RF l)). lra.
    - intros l L. pose proof (i_new st I l L). specialize (T1 l). specialize (INN l). change (tot st' (RF l)) with (total acts (RF l)). lra.
    - intros k L P. apply (i_holds st I k L). specialize (W k). lra.
    - intros k. pose proof (i_rel st I k). specialize (T3 k). change (tot st' (RRelB k)) with (total acts (RRelB k)).
      change (tot st' (RRelU k)) with (total acts (RRelU k)). change (lock_of st' k) with (lock_of st k). lra.
    - intros k L. pose proof (i_fresh st I k L). specialize (T2 k). change (tot st' (RInv k)) with (total acts (RInv k)). lra.
    - exact (i_ready st I).
  Qed.

  Lemma good_none st : good_act st no_act.
  Proof. split; [intros; cbn; lra|]. split; intros x P; cbn in P; lra. Qed.

  Lemma good_update st acts i a : (forall j, good_act st (nth j acts no_act)) -> good_act st a -> forall j, good_act st (nth j (update acts i a) no_act).
  Proof.
    intros G GA j. destruct (Nat.lt_ge_cases i (length acts)) as [L|L].
    - rewrite nth_update by exact L. destruct (i =? j); auto.
    - assert (E : update acts i a = acts).
      { clear -L. revert i L. induction acts as [|x l IH]; intros [|i] L; cbn in *; auto; try lia. rewrite IH by lia. reflexivity. }
      rewrite E. apply G.
  Qed.

  Lemma good_lose st a r q : good_act st a -> (0 <= q)%Q -> (q <= a_perm a r)%Q -> good_act st (lose a r q).
  Proof.
    intros (G1 & G2 & G3) Q0 LE. split; [|split]; cbn.
    - intros r'. rewrite minus_at. destruct (res_eqb r r') eqn:E; [apply res_eqb_eq in E; subst; lra|]. pose proof (G1 r'). lra.
    - intros l P. apply G2. rewrite minus_at in P. destruct (res_eqb r (RF l)); lra.
    - intros k P. apply G3. rewrite minus_at in P. destruct (res_eqb r (RInv k)); lra.
  Qed.

  Lemma good_refresh st a l : good_act st a -> refresh (s_heap st) a l = s_heap st l.
  Proof.
    intros (_ & G2 & _). unfold refresh. destruct (has (a_perm a) (RF l)) eqn:H; [|reflexivity]. apply has_pos in H. auto.
  Qed.

  Lemma good_gain st a r q : good_act st a -> (0 <= q)%Q -> good_act st (gain (s_heap st) a r q).
  Proof.
    intros G Q0. pose proof G as (G1 & G2 & G3).
    assert (N : forall r', (0 <= plus (a_perm a) r q r')%Q).
    { intros r'. rewrite plus_at. pose proof (G1 r'). destruct (res_eqb r r'); lra. }
    destruct r as [x|k|k|k]; cbn [gain]; (split; [exact N|]); split; cbn [a_perm a_view a_snap].
    - intros l _. apply good_refresh. exact G.
    - intros k P. rewrite plus_at in P. cbn in P. apply G3. lra.
    - intros l P. rewrite plus_at in P. cbn in P. apply G2. lra.
    - intros k' P. destruct (Nat.eqb_spec k k') as [<-|D]; cbn.
      + destruct (has (a_perm a) (RInv k)) eqn:H; cbn; [apply has_pos in H; auto|intros l _; reflexivity].
      + rewrite plus_at in P. cbn in P. apply Nat.eqb_neq in D. rewrite D in P. apply G3. lra.
    - intros l P. rewrite plus_at in P. cbn in P. apply G2. lra.
    - intros k' P. rewrite plus_at in P. cbn in P. apply G3. lra.
    - intros l P. rewrite plus_at in P. cbn in P. apply G2. lra.
    - intros k' P. rewrite plus_at in P. cbn in P. apply G3. lra.
  Qed.

  Lemma gain_perm h a r q r' : a_perm (gain h a r q) r' = plus (a_perm a) r q r'.
  Proof. destruct r; reflexivity. Qed.

  (** ** Changing one activation and one lock *)
  Lemma inv_change st i k x a' : Inv st -> i < length (s_acts st) -> k < length (s_locks st) ->
    k_class x = k_class (lock_of st k) -> k_obj x = k_obj (lock_of st k) ->
    good_act st a' ->
    (forall l, (a_perm a' (RF l) + (a_perm a' (RInv k) + freeq x) * amt st k l
                <= a_perm (act_of st i) (RF l) + (a_perm (act_of st i) (RInv k) + freeq (lock_of st k)) * amt st k l)%Q) ->
    (forall k', k' <> k -> (a_perm a' (RInv k') <= a_perm (act_of st i) (RInv k'))%Q) ->
    (okk st k = true) ->
    (forall k', (a_perm a' (RRelB k') + a_perm a' (RRelU k') + (if (k' =? k) && k_taken (lock_of st k) then 1 else 0)
       <= a_perm (act_of st i) (RRelB k') + a_perm (act_of st i) (RRelU k') + (if (k' =? k) && k_taken x then 1 else 0))%Q) ->
    (k_taken x = true -> k_ready x = true) ->
    Inv (set_act (set_lock st k x) i a').
  Proof.
    intros I LI LK EC EO GA TR TK OK REL RDY. set (st' := set_act _ _ _).
    pose proof (inv_nonneg st I) as N0.
    assert (LOCK : forall k', lock_of st' k' = if k =? k' then x else lock_of st k') by (intros k'; apply nth_update; exact LK).
    assert (CL : forall k', k_class (lock_of st' k') = k_class (lock_of st k')) by (intros k'; rewrite LOCK; destruct (Nat.eqb_spec k k'); subst; auto).
    assert (OB : forall k', k_obj (lock_of st' k') = k_obj (lock_of st k')) by (intros k'; rewrite LOCK; destruct (Nat.eqb_spec k k'); subst; auto).
    assert (AMT : forall k' l, amt st' k' l = amt st k' l) by (intros k' l; unfold amt, objk, invk; now rewrite CL, OB).
    assert (OKK : forall k', okk st' k' = okk st k') by (intros k'; unfold okk, objk, invk; now rewrite CL, OB).
    assert (LEN : length (s_locks st') = length (s_locks st)) by (unfold st'; cbn; apply update_length).
    assert (GS : forall a, good_act st a -> good_act st' a).
    { intros a (G1 & G2 & G3). split; [exact G1|]. split; [exact G2|]. intros k' P l A. rewrite AMT in A. exact (G3 k' P l A). }
    assert (ACTS : forall j, good_act st' (act_of st' j)).
    { intros j. apply GS. unfold act_of, st'. cbn. apply good_update; [exact (i_acts st I)|exact GA]. }
    assert (TOT : forall r, (tot st' r == tot st r - a_perm (act_of st i) r + a_perm a' r)%Q) by (intros r; apply total_update; exact LI).
    assert (N : nonneg (s_acts st')) by (intros j r; exact (proj1 (ACTS j) r)).
    assert (INN : forall l, (inner st' l <= inner st l - weight st k * amt st k l + weight st' k * amt st k l)%Q).
    { intros l. unfold inner. rewrite LEN.
      eapply Qle_trans; [apply (sumk_change (length (s_locks st)) (fun k => (weight st k * amt st k l)%Q) (fun k => (weight st' k * amt st' k l)%Q) k LK)|].
      - intros k' L' D. cbn beta. rewrite AMT. destruct (Qlt_le_dec 0 (weight st k')) as [P|P].
        + pose proof (amt_nonneg st k' l (i_holds st I k' L' P)) as A.
          rewrite (Qmult_comm (weight st' k')), (Qmult_comm (weight st k')). apply Qmult_le_compat_nonneg; split; try lra.
          * exact (weight_nonneg st' k' N).
          * unfold weight. rewrite TOT, LOCK. apply Nat.eqb_neq in D as D'. rewrite Nat.eqb_sym in D'. rewrite D'. specialize (TK k' D). lra.
        + assert (P' : (weight st' k' <= weight st k')%Q).
          { unfold weight. rewrite TOT, LOCK. apply Nat.eqb_neq in D as D'. rewrite Nat.eqb_sym in D'. rewrite D'. specialize (TK k' D). lra. }
          pose proof (weight_nonneg st' k' N). pose proof (weight_nonneg st k' N0).
          assert (E : (weight st' k' == 0)%Q) by lra. assert (E' : (weight st k' == 0)%Q) by lra. rewrite E, E'. lra.
      - cbn beta. rewrite AMT. lra. }
    assert (WK : (weight st' k == weight st k - a_perm (act_of st i) (RInv k) - freeq (lock_of st k) + a_perm a' (RInv k) + freeq x)%Q).
    { unfold weight. rewrite TOT, LOCK, Nat.eqb_refl. lra. }
    assert (ALL : forall l, (tot st' (RF l) + inner st' l <= tot st (RF l) + inner st l)%Q).
    { intros l. specialize (INN l). specialize (TR l). rewrite TOT.
      assert (E : (weight st' k * amt st k l == weight st k * amt st k l
                    - (a_perm (act_of st i) (RInv k) + freeq (lock_of st k)) * amt st k l
                    + (a_perm a' (RInv k) + freeq x) * amt st k l)%Q) by (rewrite WK; ring).
      lra. }
    constructor.
    - exact ACTS.
    - intros l. pose proof (i_tot st I l). specialize (ALL l). lra.
    - intros l L. pose proof (i_new st I l L). specialize (ALL l). lra.
    - intros k' L P. rewrite OKK. rewrite LEN in L. destruct (Nat.eq_dec k' k) as [->|D]; [exact OK|]. apply (i_holds st I k' L).
      unfold weight in *. rewrite TOT, LOCK in P. apply Nat.eqb_neq in D as D'. rewrite Nat.eqb_sym in D'. rewrite D' in P. specialize (TK k' D). lra.
    - intros k'. rewrite !TOT, LOCK. pose proof (i_rel st I k') as R. specialize (REL k'). rewrite Nat.eqb_sym in REL.
      destruct (Nat.eqb_spec k k') as [E|D]; cbn [andb] in REL; [rewrite <- E in *|lra].
      destruct (k_taken x), (k_taken (lock_of st k)); lra.
    - intros k' L. rewrite LEN in L. pose proof (i_fresh st I k' L). rewrite TOT.
      assert (D : k' <> k) by lia. specialize (TK k' D). lra.
    - intros k'. rewrite LOCK. destruct (k =? k'); [exact RDY|apply (i_ready st I)].
  Qed.
End Inv.
