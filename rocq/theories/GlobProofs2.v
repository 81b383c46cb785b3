(** The programs of the specification are fine, and interpretations for their executions. *)
From Coq Require Import List Bool Arith ZArith Lia.
From Verif Require Import GlobModel GlobSpec GlobProofs.
Import ListNotations.
Local Open Scope nat_scope.

Lemma d_dec : forall a b : nat * expr, {a = b} + {a <> b}.
Proof. assert (forall a b : expr, {a = b} + {a <> b}) by (decide equality; [ apply Z.eq_dec | decide equality; apply Nat.eq_dec ]). decide equality. apply Nat.eq_dec. Qed.

(** The imports as the analyzer finds them. *)
Definition imports_ok (P : prog) : Prop :=
  (forall m0 p m x, In (m0, p) (mods P) -> In (m, x) (froms p) -> from_of P m0 x = Some m) /\
  (forall m0 x m, from_of P m0 x = Some m ->
     from_of P m x = None /\ final P (m, x) = true /\
     forall m1 r, In (m1, r) (all_targets P) -> pykey m1 r <> (m0, x)).
Lemma from_of_imports : forall P m0 m x, from_of P m0 x = Some m -> imports P m0 m x.
Proof.
  intros P m0 m x. unfold from_of. destruct (find _ _) as [i|] eqn:F; [| discriminate ]. cbn. intros E. injection E as <-.
  apply find_some in F. destruct F as (F & Ex). apply Nat.eqb_eq in Ex. apply in_flat_map in F. destruct F as ((m1 & p) & H1 & H2). cbn [fst snd] in H2.
  destruct (Nat.eqb_spec m1 m0) as [->|]; [| destruct H2 ]. exists p. split; [ exact H1 |]. destruct i. cbn in *. now subst.
Qed.
Lemma imports_from_of : forall P m0 m x, imports P m0 m x -> from_of P m0 x <> None.
Proof.
  intros P m0 m x (p & H1 & H2). unfold from_of. destruct (find _ _) as [i|] eqn:F; [ discriminate |]. exfalso.
  assert (N : In (m, x) (flat_map (fun d => if fst d =? m0 then froms (snd d) else []) (mods P))).
  2: { apply (find_none _ _ F) in N. cbn in N. now rewrite Nat.eqb_refl in N. }
  apply in_flat_map. exists (m0, p). split; [ exact H1 |]. cbn. now rewrite Nat.eqb_refl.
Qed.
Lemma imports_final_ok : forall P, imports_final P -> imports_ok P.
Proof.
  intros P H. split.
  - intros m0 p m x H1 H2. assert (Im : imports P m0 m x) by (exists p; now split). pose proof (imports_from_of _ _ _ _ Im) as N.
    destruct (from_of P m0 x) as [m'|] eqn:F; [| contradiction ]. f_equal. apply (proj1 (H _ _ _ Im)). now apply from_of_imports.
  - intros m0 x m F. apply from_of_imports in F. destruct (H _ _ _ F) as (_ & A & B & C). split; [| now split ].
    destruct (from_of P m x) as [m'|] eqn:G; [| reflexivity ]. apply from_of_imports in G. now destruct (A m').
Qed.

Section Static.
  Variable P : prog.
  Notation fin := (final P).
  Notation own k := (from_of P (fst k) (snd k) = None).
  Hypothesis KA : known_attributes P.
  Hypothesis IF : imports_ok P.
  Hypothesis NL : no_final_in_loops P.
  Hypothesis SF : simple_functions P.

  Lemma wb_chain_free : chain_free P.
  Proof. intros m0 x m H. destruct (proj2 IF _ _ _ H) as (A & B & _). now split. Qed.

  Lemma target_own : forall m0 r, In (m0, r) (all_targets P) -> own (pykey m0 r).
  Proof.
    intros m0 r H. destruct (pykey m0 r) as [m x] eqn:E. cbn [fst snd].
    destruct (from_of P m x) as [m'|] eqn:F; [| reflexivity ].
    destruct (proj2 IF _ _ _ F) as (_ & _ & N). destruct (N _ _ H E).
  Qed.
  Lemma all_writes_targets : forall v, In v (all_writes P) -> exists m0 r, In (m0, r) (all_targets P) /\ v = pykey m0 r.
  Proof.
    intros v H.
    assert (X : exists m0 r, In (m0, r) (all_targets P) /\ v = resolve P m0 r).
    { unfold all_writes in H. apply in_app_or in H. destruct H as [H|H].
      - apply in_flat_map in H. destruct H as ([m p] & I1 & I2). apply writes_targets in I2. apply in_map_iff in I2.
        destruct I2 as (r & E & I2). exists m, r. split; [| now symmetry ].
        apply in_flat_map. exists (m, p). split; [ apply in_or_app; now left | now apply in_map ].
      - apply in_flat_map in H. destruct H as ([f d] & I1 & I2). apply writes_targets in I2. apply in_map_iff in I2.
        destruct I2 as (r & E & I2). exists (f_mod d), r. split; [| now symmetry ].
        apply in_flat_map. exists (f_mod d, f_body d). split; [| now apply in_map ].
        apply in_or_app. right. apply in_map_iff. exists (f, d). now split. }
    destruct X as (m0 & r & I1 & E). exists m0, r. split; [ exact I1 |].
    rewrite E. apply own_resolve. now apply target_own.
  Qed.
  Lemma wb_keys_final : keys_final P.
  Proof.
    intros m0 x m H. apply Nat.leb_le. destruct (filter (key_eqb (m0, x)) (all_writes P)) as [|v l] eqn:E; [ cbn [length]; lia |].
    exfalso. assert (K : In v (filter (key_eqb (m0, x)) (all_writes P))) by (rewrite E; now left).
    apply filter_In in K. destruct K as [K1 K2]. destruct (key_eqb_spec (m0, x) v) as [<-|]; [| discriminate ].
    destruct (all_writes_targets _ K1) as (m1 & r & I1 & I2). destruct (proj2 IF _ _ _ H) as (_ & _ & N). now apply (N _ _ I1).
  Qed.

  (** Variables that are assigned through a module are not final. *)
  Lemma attr_mut : forall m0 m x, In (m0, RAttr m x) (all_targets P) -> fin (m, x) = false.
  Proof.
    intros m0 m x H. destruct (fin (m, x)) eqn:F; [| reflexivity ]. exfalso.
    destruct (KA _ _ _ H) as (m1 & y & I1 & E).
    assert (C := cnt_two _ (rk P) (m, x) (m0, RAttr m x) (m1, RName y) (all_targets P) H I1).
    assert (2 <= cnt (m, x) (map (rk P) (all_targets P))).
    { apply C.
      - discriminate.
      - unfold rk. cbn [fst snd]. apply (own_resolve P m0 (RAttr m x)). exact (target_own _ _ H).
      - unfold rk. cbn [fst snd]. rewrite own_resolve; [ exact E | exact (target_own _ _ I1) ]. }
    pose proof (cnt_all_targets P (m, x)). pose proof (final_cnt P _ F). lia.
  Qed.

  (** The value of a final variable is what the only assignment assigns. *)
  Lemma assigned_cnt : forall v m0 p, cnt v (map fst (assigned P m0 p)) <= cnt v (writes P false m0 p).
  Proof.
    intros v m0. induction p; cbn [assigned writes map]; rewrite ?map_app, ?cnt_app; try lia.
    - destruct r; cbn [map fst]; [ lia | unfold cnt; cbn [filter length]; lia ].
  Qed.
  Definition table := flat_map (fun d => assigned P (fst d) (snd d)) (mods P).
  Lemma table_cnt : forall v, cnt v (map fst table) <= cnt v (all_writes P).
  Proof.
    intros v. unfold all_writes. rewrite cnt_app. unfold table, mod_writes.
    cut (cnt v (map fst (flat_map (fun d => assigned P (fst d) (snd d)) (mods P))) <= cnt v (flat_map (fun d => writes P false (fst d) (snd d)) (mods P))); [ lia |].
    induction (mods P) as [|[m p] l IH]; [ apply le_n |]. cbn [flat_map fst snd]. rewrite map_app, !cnt_app.
    pose proof (assigned_cnt v m p). lia.
  Qed.
  Lemma value_of : forall v d, fin v = true -> In (v, d) table -> value P v = Some d.
  Proof.
    intros v d F H. unfold value. fold table.
    destruct (find (fun d0 => key_eqb v (fst d0)) (rev table)) as [[v' d']|] eqn:E.
    - apply find_some in E. destruct E as [E1 E2]. apply in_rev in E1. cbn [fst] in E2.
      destruct (key_eqb_spec v v') as [<-|]; [| discriminate ]. cbn [option_map snd].
      destruct (d_dec d d') as [->|N].
      + reflexivity.
      + exfalso. assert (C := cnt_two _ fst v (v, d) (v, d') table H E1). 
        assert (2 <= cnt v (map fst table)) by (apply C; [ congruence | reflexivity | reflexivity ]).
        pose proof (table_cnt v). pose proof (final_cnt P _ F). lia.
    - exfalso. assert (K := find_none _ _ E (v, d) (proj1 (in_rev table (v, d)) H)). cbn [fst] in K. rewrite key_eqb_refl in K. discriminate.
  Qed.

  Lemma ok_of : forall infun m0 p,
    (forall r, In r (targets p) -> own (pykey m0 r)) ->
    (forall v, fin v = true -> cnt v (writes P infun m0 p) <= 1) ->
    (forall r, In r (loop_targets p) -> fin (pykey m0 r) = false) ->
    (forall m x, In (RAttr m x) (targets p) -> fin (m, x) = false) ->
    (forall m x, In (m, x) (froms p) -> from_of P m0 x = Some m) ->
    (forall v d, In (v, d) (assigned P m0 p) -> fin v = true -> infun = false -> value P v = Some d) ->
    (infun = true -> simple p) ->
    ok P infun m0 p.
  Proof.
    intros infun m0. induction p; cbn [targets writes loop_targets froms assigned simple ok]; intros T C L A F V SI; auto.
    - split; [| split ].
      + apply IHp1.
        * intros r H. apply T. apply in_or_app. now left.
        * intros v H. specialize (C v H). rewrite cnt_app in C. lia.
        * intros r H. apply L. apply in_or_app. now left.
        * intros m x H. apply A. apply in_or_app. now left.
        * intros m x H. apply F. apply in_or_app. now left.
        * intros v d H. apply V. apply in_or_app. now left.
        * intros H. now apply SI.
      + apply IHp2.
        * intros r H. apply T. apply in_or_app. now right.
        * intros v H. specialize (C v H). rewrite cnt_app in C. lia.
        * intros r H. apply L. apply in_or_app. now right.
        * intros m x H. apply A. apply in_or_app. now right.
        * intros m x H. apply F. apply in_or_app. now right.
        * intros v d H. apply V. apply in_or_app. now right.
        * intros H. now apply SI.
      + intros v Fv H1 H2. specialize (C v Fv). rewrite cnt_app in C. apply cnt_in in H1, H2. lia.
    - split; [ apply T; now left |]. intros Fk. destruct r as [x|m x].
      + destruct infun.
        * exfalso. specialize (C _ Fk). cbn [pykey] in C. rewrite own_resolve in C by (apply (T (RName x)); now left).
          unfold cnt in C. cbn [filter pykey] in C. rewrite key_eqb_refl in C. cbn [length] in C. lia.
        * split; [ reflexivity |]. apply V; auto. rewrite own_resolve by (apply (T (RName x)); now left). now left.
      + specialize (A m x (or_introl eq_refl)). cbn [pykey] in Fk. congruence.
    - split; [ destruct infun; [ destruct (SI eq_refl) | reflexivity ] | apply F; now left ].
    - split.
      + apply IHp1.
        * intros r H. apply T. apply in_or_app. now left.
        * intros v H. specialize (C v H). rewrite cnt_app in C. lia.
        * intros r H. apply L. apply in_or_app. now left.
        * intros m x H. apply A. apply in_or_app. now left.
        * intros m x H. apply F. apply in_or_app. now left.
        * intros v d H. apply V. apply in_or_app. now left.
        * intros H. now apply SI.
      + apply IHp2.
        * intros r H. apply T. apply in_or_app. now right.
        * intros v H. specialize (C v H). rewrite cnt_app in C. lia.
        * intros r H. apply L. apply in_or_app. now right.
        * intros m x H. apply A. apply in_or_app. now right.
        * intros m x H. apply F. apply in_or_app. now right.
        * intros v d H. apply V. apply in_or_app. now right.
        * intros H. now apply SI.
    - split.
      + apply IHp; auto. intros r H. apply L. clear - H. induction p; cbn [targets loop_targets] in *; try (destruct H; fail); try tauto.
        * apply in_app_or in H. apply in_or_app. tauto.
        * apply in_app_or in H. apply in_or_app. tauto.
      + intros v H. apply writes_targets in H. apply in_map_iff in H. destruct H as (r & <- & H).
        rewrite own_resolve by (now apply T). now apply L.
    - split; [ apply (T (RName x)); now left |]. split; [ apply (L (RName x)); now left |]. split.
      + apply IHp; auto.
        * intros r H. apply T. now right.
        * intros v H. specialize (C v H). cbv zeta in C. rewrite cnt_app in C. lia.
        * intros r H. apply L. right. clear - H. induction p; cbn [targets loop_targets] in *; try (destruct H; fail); try tauto.
          -- apply in_app_or in H. apply in_or_app. tauto.
          -- apply in_app_or in H. apply in_or_app. tauto.
        * intros m y H. apply A. now right.
      + intros v H. apply writes_targets in H. apply in_map_iff in H. destruct H as (r & <- & H).
        rewrite own_resolve by (apply T; now right). apply L. now right.
    - destruct infun; [ destruct (SI eq_refl) | reflexivity ].
  Qed.

  Lemma in_targets : forall m0 p r, In (m0, p) (codes P) -> In r (targets p) -> In (m0, r) (all_targets P).
  Proof. intros m0 p r H K. apply in_flat_map. exists (m0, p). split; [ exact H | now apply in_map ]. Qed.
  Lemma cnt_sub : forall A (f : A -> list key) v a l, In a l -> cnt v (f a) <= cnt v (flat_map f l).
  Proof.
    intros A f v a. induction l as [|b l IH]; intros H; [ destruct H |]. cbn [flat_map]. rewrite cnt_app.
    destruct H as [->|H]; [ lia | specialize (IH H); lia ].
  Qed.

  Lemma wb_ok_mod : forall m0 p, In (m0, p) (mods P) -> ok P false m0 p.
  Proof.
    intros m0 p H. assert (HC : In (m0, p) (codes P)) by (apply in_or_app; now left).
    apply ok_of.
    - intros r K. apply target_own. eapply in_targets; eassumption.
    - intros v Fv. pose proof (final_cnt P v Fv) as C. unfold all_writes in C. rewrite cnt_app in C.
      pose proof (cnt_sub _ (fun d => writes P false (fst d) (snd d)) v (m0, p) (mods P) H) as K. cbn [fst snd] in K. unfold mod_writes in C. lia.
    - intros r K. specialize (NL _ _ _ HC K). rewrite own_resolve in NL; [ exact NL |].
      apply target_own. eapply in_targets; [ exact HC |].
      clear - K. induction p; cbn [targets loop_targets] in *; try (destruct K; fail); try tauto.
      + apply in_app_or in K. apply in_or_app. tauto.
      + apply in_app_or in K. apply in_or_app. tauto.
    - intros m x K. eapply attr_mut. eapply in_targets; eassumption.
    - intros m x K. eapply (proj1 IF); eassumption.
    - intros v d K Fv _. apply value_of; [ exact Fv |]. apply in_flat_map. exists (m0, p). now split.
    - discriminate.
  Qed.

  Lemma wb_ok_funs : ok_funs P.
  Proof.
    intros f d H. assert (HC : In (f_mod d, f_body d) (codes P)).
    { apply in_or_app. right. apply in_map_iff. exists (f, d). now split. }
    assert (NW : forall v, In v (writes P true (f_mod d) (f_body d)) -> fin v = false).
    { intros v K. destruct (fin v) eqn:Fv; [| reflexivity ]. exfalso.
      pose proof (final_cnt P v Fv) as C. unfold all_writes in C. rewrite cnt_app in C.
      pose proof (cnt_sub _ (fun d => writes P true (f_mod (snd d)) (f_body (snd d))) v (f, d) (funs P) H) as C2. cbn [fst snd] in C2. unfold fun_writes in C.
      assert (NA : forall m x, In (RAttr m x) (targets (f_body d)) -> fin (m, x) = false).
      { intros m x Ka. eapply attr_mut. eapply in_targets; eassumption. }
      assert (TO : forall r, In r (targets (f_body d)) -> own (pykey (f_mod d) r)).
      { intros r Kr. apply target_own. eapply in_targets; eassumption. }
      assert (C3 : 2 <= cnt v (writes P true (f_mod d) (f_body d))); [| lia ].
      clear - K NA TO Fv. induction (f_body d); cbn [writes targets] in *; try (destruct K; fail).
      - rewrite cnt_app. apply in_app_or in K. destruct K as [K|K].
        + assert (2 <= cnt v (writes P true (f_mod d) s1)); [| lia ]. apply IHs1; auto; intros; [ apply NA | apply TO ]; apply in_or_app; now left.
        + assert (2 <= cnt v (writes P true (f_mod d) s2)); [| lia ]. apply IHs2; auto; intros; [ apply NA | apply TO ]; apply in_or_app; now right.
      - destruct r as [x|m x].
        + assert (v = resolve P (f_mod d) (RName x)) as -> by (destruct K as [K|[K|[]]]; congruence).
          unfold cnt. cbn [filter]. rewrite key_eqb_refl. cbn [length]. lia.
        + destruct K as [K|[]]. rewrite own_resolve in K by (apply TO; now left). cbn [pykey] in K. subst v.
          rewrite (NA m x (or_introl eq_refl)) in Fv. discriminate.
      - rewrite cnt_app. apply in_app_or in K. destruct K as [K|K].
        + assert (2 <= cnt v (writes P true (f_mod d) s1)); [| lia ]. apply IHs1; auto; intros; [ apply NA | apply TO ]; apply in_or_app; now left.
        + assert (2 <= cnt v (writes P true (f_mod d) s2)); [| lia ]. apply IHs2; auto; intros; [ apply NA | apply TO ]; apply in_or_app; now right.
      - auto.
      - cbv zeta in *. rewrite cnt_app. apply in_app_or in K. destruct K as [K|K].
        + assert (v = resolve P (f_mod d) (RName x)) as -> by (destruct K as [K|[K|[]]]; congruence).
          unfold cnt at 1. cbn [filter]. rewrite key_eqb_refl. cbn [length]. lia.
        + assert (2 <= cnt v (writes P true (f_mod d) s)); [| lia ]. apply IHs; auto; intros; [ apply NA | apply TO ]; now right. }
    split; [| exact NW ].
    apply ok_of.
    - intros r K. apply target_own. eapply in_targets; eassumption.
    - intros v Fv. destruct (filter (key_eqb v) (writes P true (f_mod d) (f_body d))) as [|w l] eqn:E; unfold cnt; rewrite E; [ cbn [length]; lia |].
      exfalso. assert (K : In w (filter (key_eqb v) (writes P true (f_mod d) (f_body d)))) by (rewrite E; now left).
      apply filter_In in K. destruct K as [K1 K2]. destruct (key_eqb_spec v w) as [<-|]; [| discriminate ].
      rewrite (NW _ K1) in Fv. discriminate.
    - intros r K. specialize (NL _ _ _ HC K). rewrite own_resolve in NL; [ exact NL |].
      apply target_own. eapply in_targets; [ exact HC |].
      clear - K. induction (f_body d); cbn [targets loop_targets] in *; try (destruct K; fail); try tauto.
      + apply in_app_or in K. apply in_or_app. tauto.
      + apply in_app_or in K. apply in_or_app. tauto.
    - intros m x K. eapply attr_mut. eapply in_targets; eassumption.
    - intros m x K. exfalso. specialize (SF _ _ H). revert K SF. clear. induction (f_body d); cbn [froms simple]; intros K S0; try (destruct K; fail); try tauto.
      + apply in_app_or in K. tauto.
      + apply in_app_or in K. tauto.
    - intros; discriminate.
    - intros _. exact (SF _ _ H).
  Qed.

  (** * Interpretations *)
  Variable rank : key -> nat.
  Hypothesis NC : forall v m0 e r, fin v = true -> value P v = Some (m0, e) -> heap_dependent P m0 e = false ->
    In r (refs e) -> rank (resolve P m0 r) < rank v.
  Variable A : env.
  Hypothesis HA : ax P A.
  Hypothesis HC : copy P A.

  Fixpoint interp (n : nat) (v : key) : Z :=
    match A v with
    | Some z => z
    | None =>
        match n with
        | O => 0%Z
        | S n' =>
            match value P v with
            | Some (m0, e) => if fin v && negb (heap_dependent P m0 e) then ieval P (interp n') m0 e else 0%Z
            | None => 0%Z
            end
        end
    end.

  Lemma ieval_ext : forall I J m0 e, (forall r, In r (refs e) -> I (resolve P m0 r) = J (resolve P m0 r)) -> ieval P I m0 e = ieval P J m0 e.
  Proof.
    intros I J m0. induction e; cbn [refs ieval]; intros H; auto.
    - apply H. now left.
    - rewrite IHe1, IHe2; auto; intros r K; apply H, in_or_app; tauto.
    - rewrite IHe1, IHe2; auto; intros r K; apply H, in_or_app; tauto.
    - rewrite IHe1, IHe2; auto; intros r K; apply H, in_or_app; tauto.
  Qed.
  Lemma interp_stable : forall n m v, rank v < n -> rank v < m -> interp n v = interp m v.
  Proof.
    induction n as [|n IH]; intros m v H K; [ lia |]. destruct m as [|m]; [ lia |].
    cbn [interp]. destruct (A v); [ reflexivity |]. destruct (value P v) as [[m0 e]|] eqn:V; [| reflexivity ].
    destruct (fin v) eqn:F; [| reflexivity ]. destruct (heap_dependent P m0 e) eqn:HD; [ reflexivity |]. cbn [andb negb].
    apply ieval_ext. intros r Hr. pose proof (NC _ _ _ _ F V HD Hr). apply IH; lia.
  Qed.
  Definition the_interp (v : key) : Z := interp (S (rank v)) v.
  Lemma the_interp_env : forall v z, A v = Some z -> the_interp v = z.
  Proof. intros v z H. unfold the_interp. cbn [interp]. now rewrite H. Qed.

  Lemma ieval_env : forall m0 e z, eval m0 A e = Some z -> ieval P the_interp m0 e = z.
  Proof.
    intros m0. induction e; cbn [eval ieval]; intros w E.
    - congruence.
    - apply the_interp_env. unfold resolve, owner. destruct (pykey m0 r) as [m x]. cbn [fst snd] in *.
      destruct (from_of P m x) as [m'|] eqn:F; [ exact (HC _ _ _ _ F E) | exact E ].
    - destruct (eval m0 A e1); [| discriminate ]. destruct (eval m0 A e2); [| discriminate ].
      rewrite (IHe1 _ eq_refl), (IHe2 _ eq_refl). congruence.
    - destruct (eval m0 A e1); [| discriminate ]. destruct (eval m0 A e2); [| discriminate ].
      rewrite (IHe1 _ eq_refl), (IHe2 _ eq_refl). congruence.
    - destruct (eval m0 A e1); [| discriminate ]. destruct (eval m0 A e2); [| discriminate ].
      rewrite (IHe1 _ eq_refl), (IHe2 _ eq_refl). congruence.
  Qed.
  Lemma the_interp_axioms : axioms P the_interp.
  Proof.
    intros v m0 e F V HD. destruct (A v) as [z|] eqn:E.
    - rewrite (the_interp_env _ _ E). symmetry. apply ieval_env. exact (HA _ _ _ _ F E V HD).
    - unfold the_interp at 1. cbn [interp]. rewrite E, V, F, HD. cbn [andb negb].
      apply ieval_ext. intros r Hr. pose proof (NC _ _ _ _ F V HD Hr).
      unfold the_interp. apply interp_stable; lia.
  Qed.
End Static.
