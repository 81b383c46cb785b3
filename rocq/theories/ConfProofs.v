(** Proofs about changing options. *)
From Coq Require Import List Arith Bool Lia.
From Verif Require Import ConfModel ConfSpec.
Import ListNotations.

Lemma value_eqb_spec a b : value_eqb a b = true <-> a = b.
Proof.
  destruct a as [a|], b as [b|]; cbn; try (split; congruence). rewrite Nat.eqb_eq. split; congruence.
Qed.
Section Load.
  Context {R : Type} (load : value -> value -> value -> option R).
  Lemma assign_at d k c k' : assign d k c k' = if key_eqb k' k then match get d k with Some v => Some v | None => c k' end else c k'.
  Proof. unfold assign, set. destruct (get d k); destruct (key_eqb k' k); reflexivity. Qed.
  Lemma assign_bool_at d k c k' : assign_bool d k c k' =
    if key_eqb k' k then match get d k with Some v => Some (if v =? 0 then 0 else 1) | None => c k' end else c k'.
  Proof. unfold assign_bool, set. destruct (get d k); destruct (key_eqb k' k); reflexivity. Qed.
  Lemma assign_reload_at d k cr k' : fst (assign_reload d k cr) k' = if key_eqb k' k then match get d k with Some v => Some v | None => fst cr k end else fst cr k'.
  Proof.
    unfold assign_reload. assert (K : key_eqb k' k = true -> k' = k) by (destruct k, k'; cbn; congruence).
    destruct (get d k) as [v|].
    - destruct (value_eqb (Some v) (fst cr k)) eqn:E; [|cbn [fst]; unfold set; destruct (key_eqb k' k); reflexivity].
      apply value_eqb_spec in E. destruct (key_eqb k' k); [|reflexivity]. now rewrite E, (K eq_refl).
    - destruct (key_eqb k' k); [now rewrite (K eq_refl)|reflexivity].
  Qed.
  Lemma assign_reload_flag d k cr : snd (assign_reload d k cr) = true <-> snd cr = true \/ fst (assign_reload d k cr) k <> fst cr k.
  Proof.
    unfold assign_reload. destruct (get d k) as [v|]; [|tauto]. destruct (value_eqb (Some v) (fst cr k)) eqn:E; [tauto|].
    cbn [fst snd]. unfold set. replace (key_eqb k k) with true by (destruct k; reflexivity). split; [|reflexivity]. intros _. right.
    intros X. rewrite <- X in E. cbn in E. rewrite Nat.eqb_refl in E. discriminate.
  Qed.
  Lemma kw_get d k : get (options_to_kwargs d) k = get d k.
  Proof. unfold options_to_kwargs, get. destruct (d k) as [[v|]|]; reflexivity. Qed.
  Lemma float_kw d cr : assign_float (options_to_kwargs d) cr = assign_reload d Float cr.
  Proof. unfold assign_float, assign_reload, options_to_kwargs. destruct (get d Float); reflexivity. Qed.
  Lemma reload_kw d k cr : assign_reload (options_to_kwargs d) k cr = assign_reload d k cr.
  Proof. unfold assign_reload. now rewrite kw_get. Qed.

  Definition c2 (d : dict) (s : state R) := let d := options_to_kwargs d in
    assign_bool d Dbc (assign_bool d Server (assign d Verifier (assign d Mypy (assign d Boogie (assign d Z3 (conf s)))))).
  Definition cr (d : dict) (s : state R) := assign_reload d Float (assign_reload d Bv (assign_reload d Sif (c2 d s, false))).
  Lemma configure_eq d s : configure load d s =
    if snd (cr d s)
    then match load (fst (cr d s) Bv) (fst (cr d s) Sif) (fst (cr d s) Float) with
         | Some r => ({| conf := fst (cr d s); res := r |}, true, false)
         | None => ({| conf := fst (cr d s); res := res s |}, true, true)
         end
    else ({| conf := fst (cr d s); res := res s |}, false, false).
  Proof.
    unfold configure, reconfigure. fold (c2 d s). cbv zeta.
    rewrite float_kw, !reload_kw.
    change (assign_reload d Float (assign_reload d Bv (assign_reload d Sif (_, false)))) with (cr d s).
    destruct (cr d s) as [c b]. reflexivity.
  Qed.
  Lemma cr_wanted d s k : fst (cr d s) k = wanted d (conf s) k.
  Proof.
    unfold cr, c2. rewrite !assign_reload_at. cbn [fst]. rewrite !assign_bool_at, !assign_at, !kw_get.
    unfold get, wanted. destruct k; cbn [key_eqb]; try (destruct (d _) as [[v|]|]; reflexivity); reflexivity.
  Qed.
  Lemma conf_after d s s' r b : configure load d s = (s', r, b) -> conf s' = fst (cr d s).
  Proof.
    rewrite configure_eq. destruct (snd (cr d s)); [destruct (load _ _ _)|]; intros H; injection H as <- _ _; reflexivity.
  Qed.
  Lemma effective d s s' r b : configure load d s = (s', r, b) ->
    (forall k, conf s' k = wanted d (conf s) k) /\ forall k, k <> Jar -> current_options s' k = Some (wanted d (conf s) k).
  Proof.
    intros H.
    assert (E : forall k, conf s' k = wanted d (conf s) k) by (intros k; rewrite (conf_after _ _ _ _ _ H); apply cr_wanted).
    split; [exact E|]. intros k N. unfold current_options. rewrite E. destruct k; congruence.
  Qed.
  Lemma cr_flag d s : snd (cr d s) = true <->
    wanted d (conf s) Sif <> conf s Sif \/ wanted d (conf s) Bv <> conf s Bv \/ wanted d (conf s) Float <> conf s Float.
  Proof.
    rewrite <- !cr_wanted. unfold cr at 1. rewrite !assign_reload_flag. cbn [snd].
    unfold cr. rewrite !assign_reload_at. cbn [key_eqb fst].
    assert (C : forall k, k = Sif \/ k = Bv \/ k = Float -> c2 d s k = conf s k).
    { intros k [->|[->| ->]]; unfold c2; rewrite !assign_bool_at, !assign_at; reflexivity. }
    rewrite !C by auto. intuition discriminate.
  Qed.
  Lemma reloads d s s' r b : configure load d s = (s', r, b) ->
    (r = true <-> conf s' Sif <> conf s Sif \/ conf s' Bv <> conf s Bv \/ conf s' Float <> conf s Float).
  Proof.
    intros H. rewrite (conf_after _ _ _ _ _ H), !cr_wanted, <- cr_flag. rewrite configure_eq in H.
    destruct (snd (cr d s)); [destruct (load _ _ _)|]; injection H as _ <- _; split; congruence.
  Qed.
  Lemma step_in_step d s s' r : in_step load s -> configure load d s = (s', r, false) -> in_step load s'.
  Proof.
    unfold in_step. intros I H. pose proof (reloads _ _ _ _ _ H) as F. rewrite configure_eq in H. destruct (snd (cr d s)) eqn:E.
    - destruct (load (fst (cr d s) Bv) _ _) as [x|] eqn:L; injection H as <- _; [exact L|discriminate].
    - injection H as <- <-. cbn [conf res] in *.
      assert (K : forall k, k = Sif \/ k = Bv \/ k = Float -> fst (cr d s) k = conf s k).
      { intros k Hk. destruct (value_eqb (fst (cr d s) k) (conf s k)) eqn:V; [now apply value_eqb_spec in V|].
        assert (N : fst (cr d s) k <> conf s k) by (intros X; apply value_eqb_spec in X; congruence).
        exfalso. assert (X : false = true) by (apply F; destruct Hk as [->|[->| ->]]; auto). discriminate. }
      rewrite !K by auto. exact I.
  Qed.
  Lemma after_in_step ds s s' : after load ds s s' -> in_step load s -> in_step load s'.
  Proof. induction 1 as [|d ds s r s1 s2 H _ IH]; [auto|]. intros I. apply IH. exact (step_in_step _ _ _ _ I H). Qed.
  Lemma twice d s s1 r s2 r2 b2 : in_step load s -> configure load d s = (s1, r, false) -> configure load d s1 = (s2, r2, b2) ->
    (forall k, conf s2 k = conf s1 k) /\ res s2 = res s1 /\ r2 = false /\ b2 = false.
  Proof.
    intros I H H2. assert (E : forall k, conf s2 k = conf s1 k).
    { intros k. pose proof (proj1 (effective _ _ _ _ _ H) k) as E1. rewrite (proj1 (effective _ _ _ _ _ H2)). revert E1. unfold wanted.
      destruct k; try (intros _; reflexivity); match goal with |- context [d ?k] => destruct (d k) as [[v|]|] end; intros ->; reflexivity. }
    split; [exact E|]. assert (F : r2 = false).
    { destruct r2; [|reflexivity]. exfalso. destruct (proj1 (reloads _ _ _ _ _ H2) eq_refl) as [X|[X|X]]; apply X, E. }
    subst r2. rewrite configure_eq in H2. destruct (snd (cr d s1)); [destruct (load _ _ _); discriminate|].
    injection H2 as <- <-. auto.
  Qed.
End Load.
