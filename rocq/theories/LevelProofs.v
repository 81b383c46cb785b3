(** Proofs for C60. *)
From Coq Require Import List Bool Arith QArith Lqa Lia.
From Verif Require Import LevelModel LevelSpec.
Import ListNotations.
Local Open Scope nat_scope.

Definition term_eqb (a b : term) : bool :=
  match a, b with Level k, Level k' => k =? k' | Wait w, Wait w' => w =? w' | _, _ => false end.

Lemma term_eqb_eq a b : term_eqb a b = true <-> a = b.
Proof. destruct a, b; cbn; try rewrite Nat.eqb_eq; split; intros H; try discriminate; try congruence; inversion H; auto. Qed.

Lemma term_eqb_refl a : term_eqb a a = true.
Proof. now apply term_eqb_eq. Qed.

Definition put (v : term -> Q) (t : term) (q : Q) : term -> Q := fun x => if term_eqb t x then q else v x.

Definition uses (t : term) (f : fact) : Prop := match f with Lt a b | Le a b => a = t \/ b = t end.

Lemma put_other v t q x : x <> t -> put v t q x = v x.
Proof. intros D. unfold put. destruct (term_eqb t x) eqn:E; [apply term_eqb_eq in E; congruence|reflexivity]. Qed.

Lemma put_same v t q : put v t q t = q.
Proof. unfold put. now rewrite term_eqb_refl. Qed.

Lemma put_holds v t q l : Forall (holds v) l -> (forall f, In f l -> ~ uses t f) -> Forall (holds (put v t q)) l.
Proof.
  rewrite !Forall_forall. intros H U f I. specialize (H f I). specialize (U f I).
  destruct f; cbn in *; rewrite !put_other; auto.
Qed.

Definition bounded (st : state) : Prop :=
  0 < n_waits st /\ forall f, In f (facts st) -> (forall k, mentions k f -> k < n_locks st) /\ (forall w, uses (Wait w) f -> w < n_waits st).

Lemma promised_in w k above below f : In f (promised w k above below) ->
  (f = Lt (Wait w) (Level k) /\ above = None) \/ (exists a, above = Some a /\ f = Lt (Level a) (Level k)) \/
  (exists b, below = Some b /\ f = Lt (Level k) (Level b)).
Proof.
  unfold promised. intros I. apply in_app_or in I as [I|I].
  - destruct above as [a|]; destruct I as [<-|[]]; [right; left; eauto|left; auto].
  - destruct below as [b|]; [destruct I as [<-|[]]; right; right; eauto|destruct I].
Qed.

Lemma bounded_step st l st' : bounded st -> step st l st' -> bounded st'.
Proof.
  intros (W0 & B) S. destruct S; cbn in *; (split; [cbn; lia|]); cbn; intros f I; try (apply in_app_or in I as [I|I]).
  - apply promised_in in I as [(-> & ->)|[(a & -> & ->)|(b & -> & ->)]]; cbn in *; split; intros x [E|E]; inversion E; subst; lia.
  - destruct (B f I) as (B1 & B2). split; intros x M; [specialize (B1 x M); lia|exact (B2 x M)].
  - destruct (B f I) as (B1 & B2). split; intros x M; [specialize (B1 x M); lia|exact (B2 x M)].
  - apply promised_in in I as [(-> & ->)|[(a & -> & ->)|(b & -> & ->)]]; cbn in *; split; intros x [E|E]; inversion E; subst; lia.
  - exact (B f I).
  - apply in_map_iff in I as (k & <- & I). rewrite Forall_forall in H. specialize (H k I).
    split; intros x M; cbn in M; destruct M as [E|E]; inversion E; subst; lia.
  - apply in_app_or in I as [I|I].
    + apply in_map_iff in I as (w & <- & I). rewrite Forall_forall in H0. specialize (H0 w I).
      split; intros x M; cbn in M; destruct M as [E|E]; inversion E; subst; lia.
    + destruct (B f I) as (B1 & B2). split; intros x M; [exact (B1 x M)|specialize (B2 x M); lia].
  - apply in_map_iff in I as (k & <- & I). rewrite Forall_forall in H. specialize (H k I).
    split; intros x M; cbn in M; destruct M as [E|E]; inversion E; subst; lia.
  - destruct (B f I) as (B1 & B2). split; intros x M; [exact (B1 x M)|specialize (B2 x M); lia].
Qed.

Lemma upper (l : list Q) : exists q, Forall (fun x => (x <= q)%Q) l.
Proof.
  induction l as [|x l (q & IH)]; [exists 0%Q; constructor|].
  exists (if Qlt_le_dec x q then q else x). destruct (Qlt_le_dec x q) as [L|L]; constructor; try lra; auto.
  eapply Forall_impl; [|exact IH]. cbn. intros y Y. lra.
Qed.

Lemma lower (l : list Q) : exists q, Forall (fun x => (q < x)%Q) l.
Proof.
  destruct (upper (map Qopp l)) as (q & U). exists (- q - 1)%Q. rewrite Forall_forall in *. intros x I.
  specialize (U (- x)%Q (in_map Qopp l x I)). cbn in U. lra.
Qed.

(** A level for an object about whose level nothing is known. *)
Lemma choose st v w k above below :
  Forall (holds v) (facts st) -> (forall f, In f (facts st) -> ~ mentions k f) ->
  (forall a, above = Some a -> a <> k) -> (forall b, below = Some b -> b <> k) ->
  Forall (proves (facts st)) (demanded w above below) ->
  exists v', Forall (holds v') (promised w k above below ++ facts st).
Proof.
  intros H U NA NB D.
  set (lo := match above with None => v (Wait w) | Some a => v (Level a) end).
  set (q := match below with None => (lo + 1)%Q | Some b => ((lo + v (Level b)) * (1#2))%Q end).
  assert (LB : forall b, below = Some b -> (lo < v (Level b))%Q).
  { intros b ->. unfold lo. destruct above as [a|]; cbn in D; inversion D as [|f l P _]; subst; exact (P v H). }
  exists (put v (Level k) q). apply Forall_app. split; [|apply put_holds; [exact H|exact U]].
  apply Forall_forall. intros f I. apply promised_in in I as [(-> & ->)|[(a & -> & ->)|(b & -> & ->)]]; cbn [holds]; rewrite put_same.
  - rewrite put_other by discriminate. unfold q. destruct below as [b|]; [|unfold lo; lra]. specialize (LB b eq_refl). unfold lo in *. lra.
  - specialize (NA a eq_refl). rewrite put_other by congruence. unfold q. destruct below as [b|]; [|unfold lo; lra]. specialize (LB b eq_refl). unfold lo in *. lra.
  - specialize (NB b eq_refl). rewrite put_other by congruence. specialize (LB b eq_refl). unfold q. lra.
Qed.

Lemma orderly_consistent st : orderly start st -> bounded st /\ consistent (facts st).
Proof.
  intros O. remember start as s0 eqn:E. induction O as [s|s1 s2 l s3 O IH S UN]; subst.
  - split; [split; [cbn; lia|intros f []]|exists (fun _ => 0%Q); constructor].
  - destruct (IH eq_refl) as (B & v & V). split; [exact (bounded_step s2 l s3 B S)|]. destruct B as (W0 & B).
    destruct S; cbn [facts].
    + eapply choose; [exact V| | | |eassumption].
      * intros f I M. destruct (B f I) as (B1 & _). specialize (B1 _ M). lia.
      * intros a ->. cbn in *. lia.
      * intros b ->. cbn in *. lia.
    + exists v. exact V.
    + destruct (UN k eq_refl) as (U1 & U2). eapply choose; [exact V|exact U1| | |eassumption].
      * intros a -> ->. apply U2. cbn [facts]. apply in_or_app. left. unfold promised. left. reflexivity.
      * intros b -> ->. apply U2. cbn [facts]. apply in_or_app. left. unfold promised. apply in_or_app. right. left. reflexivity.
    + destruct (upper (map v (map Level ls ++ map Wait ws))) as (q & Q). rewrite Forall_forall in Q.
      exists (put v (Wait (n_waits st)) q). rewrite !Forall_app. split; [|split].
      * apply Forall_forall. intros f I. apply in_map_iff in I as (k & <- & I). cbn [holds]. rewrite put_same, put_other by discriminate.
        apply Q. apply in_map. apply in_or_app. left. now apply in_map.
      * apply Forall_forall. intros f I. apply in_map_iff in I as (w & <- & I). rewrite Forall_forall in H0. specialize (H0 w I).
        cbn [holds]. rewrite put_same, put_other by (intros X; inversion X; lia).
        apply Q. apply in_map. apply in_or_app. right. now apply in_map.
      * apply put_holds; [exact V|]. intros f I M. destruct (B f I) as (_ & B2). specialize (B2 _ M). lia.
    + destruct (lower (map v (map Level ls))) as (q & Q). rewrite Forall_forall in Q.
      exists (put v (Wait (n_waits st)) q). rewrite Forall_app. split.
      * apply Forall_forall. intros f I. apply in_map_iff in I as (k & <- & I). cbn [holds]. rewrite put_same, put_other by discriminate.
        apply Q. apply in_map. now apply in_map.
      * apply put_holds; [exact V|]. intros f I M. destruct (B f I) as (_ & B2). specialize (B2 _ M). lia.
Qed.

Lemma direct_consistent tr st : steps start tr st -> (forall k, ~ In (Super k) tr) -> consistent (facts st).
Proof.
  intros S D. apply orderly_consistent. remember start as s0 eqn:E. induction S as [s|s1 tr s2 l s3 S IH X]; [constructor|]. subst.
  econstructor; [apply IH; [reflexivity|]|exact X|].
  - intros k N. apply (D k). apply in_or_app. left. exact N.
  - intros k ->. exfalso. apply (D k). apply in_or_app. right. left. reflexivity.
Qed.
