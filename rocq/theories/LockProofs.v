(** Proofs for C59, part 1: framing, sums. *)
From Coq Require Import List Bool Arith ZArith QArith Lqa Lia.
From Verif Require Import LockModel LockSpec.
Import ListNotations.
Local Open Scope nat_scope.

Lemma loc_eqb_eq a b : loc_eqb a b = true <-> a = b.
Proof.
  unfold loc_eqb. rewrite andb_true_iff, Z.eqb_eq, Nat.eqb_eq. destruct a, b; cbn. split; [intros (-> & ->)|intros E; inversion E]; auto.
Qed.

Lemma loc_eqb_refl a : loc_eqb a a = true.
Proof. now apply loc_eqb_eq. Qed.

Lemma qpos q : negb (Qle_bool q 0) = true <-> (0 < q)%Q.
Proof.
  rewrite negb_true_iff. split; intros H.
  - destruct (Qlt_le_dec 0 q) as [L|L]; [exact L|]. apply Qle_bool_iff in L. congruence.
  - destruct (Qle_bool q 0) eqn:E; [|reflexivity]. apply Qle_bool_iff in E. lra.
Qed.

(** ** Framing *)
Section Framing.
  Variable obj : Z.
  Variables h h' : heap.

  Lemma covered_in p l x : covered p l = true -> In x l -> (0 < p x)%Q.
  Proof. intros C I. apply qpos. exact (proj1 (forallb_forall _ _) C x I). Qed.

  Lemma covered_app p a b : covered p (a ++ b) = true -> covered p a = true /\ covered p b = true.
  Proof. unfold covered. rewrite forallb_app. apply andb_true_iff. Qed.

  Lemma eval_frame e : (forall x, In x (reads obj h e) -> h' x = h x) -> eval obj h' e = eval obj h e.
  Proof.
    induction e as [|z|e IH f|a IHa b IHb]; cbn; intros A; auto.
    - rewrite IH by (intros x I; apply A; apply in_or_app; auto). apply A. apply in_or_app. right. left. reflexivity.
    - rewrite IHa, IHb; auto; intros x I; apply A; apply in_or_app; auto.
  Qed.

  Lemma istrue_frame t : (forall x, In x (treads obj h t) -> h' x = h x) -> istrue obj h' t = istrue obj h t.
  Proof.
    induction t as [a b|a b|t IH|s IHs t IHt]; cbn; intros A.
    - rewrite !eval_frame; auto; intros x I; apply A; apply in_or_app; auto.
    - rewrite !eval_frame; auto; intros x I; apply A; apply in_or_app; auto.
    - now rewrite IH.
    - rewrite IHs by (intros x I; apply A; apply in_or_app; auto).
      destruct (istrue obj h s) eqn:E; cbn; [|reflexivity]. apply IHt. intros x I. apply A. apply in_or_app. auto.
  Qed.

  (** A well-defined assertion that holds has non-negative permissions, and it means the same
      in a heap that agrees where there is permission. *)
  Lemma amounts_nonneg a : forall p, welldef obj h p a = true -> holds obj h a = true -> forall l, (0 <= amounts obj h a l)%Q.
  Proof.
    induction a as [e f q|t|t a IH|a IHa b IHb]; cbn [welldef holds amounts]; intros p W H l.
    - apply andb_true_iff in W as (_ & W). apply Qle_bool_iff in W. destruct (loc_eqb _ _); lra.
    - lra.
    - apply andb_true_iff in W as (_ & W). destruct (istrue obj h t); [|lra]. cbn in *. eauto.
    - apply andb_true_iff in W as (W1 & W2). apply andb_true_iff in H as (H1 & H2). rewrite H1 in W2. cbn in W2.
      specialize (IHa p W1 H1 l). specialize (IHb _ W2 H2 l). lra.
  Qed.

  Lemma frame a : forall p, (forall l, (0 <= p l)%Q) -> welldef obj h p a = true -> holds obj h a = true ->
    (forall l, (0 < p l + amounts obj h a l)%Q -> h' l = h l) ->
    (forall l, amounts obj h' a l = amounts obj h a l) /\ holds obj h' a = true.
  Proof.
    induction a as [e f q|t|t a IH|a IHa b IHb]; cbn [welldef holds amounts]; intros p NN W H A.
    - apply andb_true_iff in W as (W & Q0). apply Qle_bool_iff in Q0. rewrite eval_frame; [auto|].
      intros x I. apply A. apply (covered_in _ _ _ W) in I. destruct (loc_eqb _ _); lra.
    - split; [reflexivity|]. rewrite istrue_frame; [exact H|]. intros x I. apply A. apply (covered_in _ _ _ W) in I. lra.
    - apply andb_true_iff in W as (W1 & W2).
      assert (E : istrue obj h' t = istrue obj h t).
      { apply istrue_frame. intros x I. apply A. apply (covered_in _ _ _ W1) in I. destruct (istrue obj h t) eqn:E; [|lra].
        cbn in *. pose proof (amounts_nonneg a p W2 H x). lra. }
      rewrite E. destruct (istrue obj h t) eqn:E'; cbn in *; [|auto]. exact (IH p NN W2 H A).
    - apply andb_true_iff in W as (W1 & W2). apply andb_true_iff in H as (H1 & H2). rewrite H1 in W2. cbn in W2.
      pose proof (amounts_nonneg a p W1 H1) as N1. pose proof (amounts_nonneg b _ W2 H2) as N2.
      destruct (IHa p NN W1 H1) as (A1 & B1); [intros l P; apply A; specialize (N2 l); lra|].
      destruct (IHb _ (fun l => Qplus_le_compat _ _ _ _ (NN l) (N1 l)) W2 H2) as (A2 & B2); [intros l P; apply A; lra|].
      split; [intros l; now rewrite A1, A2|]. now rewrite B1, B2.
  Qed.

  Lemma welldef_mono a : forall p p', (forall l, (p l <= p' l)%Q) -> welldef obj h p a = true -> welldef obj h p' a = true.
  Proof.
    assert (CM : forall p p' l, (forall x, (p x <= p' x)%Q) -> covered p l = true -> covered p' l = true).
    { intros p p' l LE C. apply forallb_forall. intros x I. apply qpos. pose proof (covered_in _ _ _ C I). specialize (LE x). lra. }
    induction a as [e f q|t|t a IH|a IHa b IHb]; cbn [welldef]; intros p p' LE W.
    - apply andb_true_iff in W as (W1 & W2). rewrite (CM _ _ _ LE W1), W2. reflexivity.
    - exact (CM _ _ _ LE W).
    - apply andb_true_iff in W as (W1 & W2). rewrite (CM _ _ _ LE W1). destruct (istrue obj h t); cbn in *; eauto.
    - apply andb_true_iff in W as (W1 & W2). rewrite (IHa _ _ LE W1). cbn. destruct (holds obj h a); cbn in *; [|reflexivity].
      eapply IHb; [|exact W2]. intros l. cbn. specialize (LE l). lra.
  Qed.
End Framing.

Lemma body_welldef sub F C obj h p : framed F -> (forall l, (0 <= p l)%Q) -> welldef obj h p (body sub F C) = true.
Proof.
  intros FR. revert p. induction F as [|(D, a) F IH]; intros p NN; [reflexivity|].
  assert (FR' : framed F) by (intros D' a' I; apply (FR D' a'); right; exact I).
  cbn. destruct (sub C D); [|exact (IH FR' p NN)].
  assert (W : welldef obj h p a = true) by (eapply welldef_mono; [exact NN|apply (FR D a); left; reflexivity]).
  cbn [welldef]. rewrite W. cbn. destruct (holds obj h a) eqn:H; [|reflexivity]. cbn. apply (IH FR').
  intros l. pose proof (amounts_nonneg obj h a p W H l). specialize (NN l). lra.
Qed.

(** ** Sums *)
Fixpoint total (l : list act) (r : res) : Q :=
  match l with [] => 0%Q | a :: l' => (a_perm a r + total l' r)%Q end.

Lemma total_update l i a r : i < length l -> (total (update l i a) r == total l r - a_perm (nth i l no_act) r + a_perm a r)%Q.
Proof.
  revert i. induction l as [|x l IH]; intros [|i] L; cbn in *; try lia; [lra|]. rewrite IH by lia. lra.
Qed.

Lemma total_app l a r : (total (l ++ [a]) r == total l r + a_perm a r)%Q.
Proof. induction l as [|x l IH]; cbn; [lra|]. rewrite IH. lra. Qed.

Lemma update_length {A} (l : list A) i a : length (update l i a) = length l.
Proof. revert i. induction l as [|x l IH]; intros [|i]; cbn; auto. Qed.

Lemma nth_update {A} (l : list A) i a j d : i < length l -> nth j (update l i a) d = if i =? j then a else nth j l d.
Proof.
  revert i j. induction l as [|x l IH]; intros [|i] [|j] L; cbn in *; try lia; auto. apply IH. lia.
Qed.

Definition nonneg (l : list act) : Prop := forall i r, (0 <= a_perm (nth i l no_act) r)%Q.

Lemma total_nonneg l r : nonneg l -> (0 <= total l r)%Q.
Proof.
  induction l as [|x l IH]; intros N; cbn; [lra|]. pose proof (N 0 r) as N0. cbn in N0.
  assert (N' : nonneg l) by (intros i; exact (N (S i))). specialize (IH N'). lra.
Qed.

Lemma total_ge l i r : nonneg l -> (a_perm (nth i l no_act) r <= total l r)%Q.
Proof.
  revert i. induction l as [|x l IH]; intros i N; [destruct i; cbn; lra|].
  assert (N' : nonneg l) by (intros j; exact (N (S j))). pose proof (N 0 r) as N0. cbn in N0. destruct i as [|i]; cbn.
  - pose proof (total_nonneg l r N'). lra.
  - specialize (IH i N'). lra.
Qed.

Lemma total_ge2 l i j r : nonneg l -> i <> j -> (a_perm (nth i l no_act) r + a_perm (nth j l no_act) r <= total l r)%Q.
Proof.
  revert i j. induction l as [|x l IH]; intros i j N D; [destruct i, j; cbn; lra|].
  assert (N' : nonneg l) by (intros k; exact (N (S k))). pose proof (N 0 r) as N0. cbn in N0.
  destruct i as [|i], j as [|j]; cbn; try lia.
  - pose proof (total_ge l j r N'). lra.
  - pose proof (total_ge l i r N'). lra.
  - specialize (IH i j N' ltac:(lia)). lra.
Qed.

Fixpoint sumk (n : nat) (g : nat -> Q) : Q :=
  match n with 0 => 0%Q | S n' => (sumk n' g + g n')%Q end.

Lemma sumk_ext n g g' : (forall k, k < n -> (g k == g' k)%Q) -> (sumk n g == sumk n g')%Q.
Proof. induction n as [|n IH]; intros E; cbn; [lra|]. rewrite IH by (intros; apply E; lia). rewrite (E n) by lia. lra. Qed.

Lemma sumk_le n g g' : (forall k, k < n -> (g k <= g' k)%Q) -> (sumk n g <= sumk n g')%Q.
Proof.
  induction n as [|n IH]; intros E; cbn; [lra|]. assert (E1 : (sumk n g <= sumk n g')%Q) by (apply IH; intros; apply E; lia).
  pose proof (E n ltac:(lia)). lra.
Qed.

Lemma sumk_nonneg n g : (forall k, k < n -> (0 <= g k)%Q) -> (0 <= sumk n g)%Q.
Proof. induction n as [|n IH]; intros E; cbn; [lra|]. specialize (IH ltac:(intros; apply E; lia)). pose proof (E n ltac:(lia)). lra. Qed.

Lemma sumk_change n g g' k : k < n -> (forall k', k' < n -> k' <> k -> (g' k' <= g k')%Q) ->
  (sumk n g' <= sumk n g - g k + g' k)%Q.
Proof.
  induction n as [|n IH]; intros L E; [lia|]. cbn. destruct (Nat.eq_dec k n) as [->|D].
  - assert (X : (sumk n g' <= sumk n g)%Q) by (apply sumk_le; intros; apply E; lia). lra.
  - specialize (IH ltac:(lia) ltac:(intros; apply E; lia)). pose proof (E n ltac:(lia) ltac:(lia)). lra.
Qed.

Lemma sumk_ge n g k : k < n -> (forall k', k' < n -> (0 <= g k')%Q) -> (g k <= sumk n g)%Q.
Proof.
  induction n as [|n IH]; intros L N; [lia|]. cbn. destruct (Nat.eq_dec k n) as [->|D].
  - pose proof (sumk_nonneg n g ltac:(intros; apply N; lia)). lra.
  - specialize (IH ltac:(lia) ltac:(intros; apply N; lia)). pose proof (N n ltac:(lia)). lra.
Qed.
