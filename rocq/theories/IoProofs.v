From Coq Require Import List Bool Arith ZArith Lia Wellfounded.
Import ListNotations.
From Verif Require Import IoModel IoSpec.
Local Open Scope nat_scope.

Lemma look_in {A} x (l : list (nat * A)) a : look x l = Some a -> In (x, a) l.
Proof. induction l as [|(y & b) l IH]; cbn; [discriminate|]. destruct (Nat.eqb_spec y x) as [->|N]; [intros [= ->]; auto|auto]. Qed.
Lemma mem_in x l : mem x l = true <-> In x l.
Proof.
  unfold mem. rewrite existsb_exists. split.
  - intros (y & Y & E). apply Nat.eqb_eq in E as ->. exact Y.
  - intros H. exists x. split; [exact H|apply Nat.eqb_refl].
Qed.
Lemma mem_not_in x l : mem x l = false <-> ~ In x l.
Proof. rewrite <- mem_in. destruct (mem x l); split; congruence. Qed.

Lemma truth_holds s e z : z = eval s e -> truth z = holds s e.
Proof. intros ->. reflexivity. Qed.

(** An environment that gives variables their values. *)
Definition sound (G : getters) (rho al : nat -> Z) (s : valuation) (env : list (nat * vexpr)) : Prop :=
  forall x v, look x env = Some v -> veval G rho al v = s x.

Lemma trans_eval G rho al s env e v : sound G rho al s env -> trans env e = Some v -> veval G rho al v = eval s e.
Proof.
  intros S. revert v. induction e as [z|x|a IHa b IHb|a IHa b IHb|a IHa b IHb|a IHa]; intros v; cbn [trans eval].
  - intros [= <-]. reflexivity.
  - apply S.
  - destruct (trans env a), (trans env b); try discriminate. intros [= <-]. cbn [veval]. rewrite (IHa _ eq_refl), (IHb _ eq_refl). reflexivity.
  - destruct (trans env a), (trans env b); try discriminate. intros [= <-]. cbn [veval]. rewrite (IHa _ eq_refl), (IHb _ eq_refl). reflexivity.
  - destruct (trans env a), (trans env b); try discriminate. intros [= <-]. cbn [veval]. rewrite (IHa _ eq_refl), (IHb _ eq_refl). reflexivity.
  - destruct (trans env a); try discriminate. intros [= <-]. cbn [veval]. rewrite (IHa _ eq_refl). unfold truth, b2z.
    destruct (eval s a =? 0)%Z; reflexivity.
Qed.
Lemma transs_eval G rho al s env es vs : sound G rho al s env -> transs env es = Some vs -> map (veval G rho al) vs = map (eval s) es.
Proof.
  intros S. revert vs. induction es as [|e es IH]; intros vs; cbn [transs].
  - intros [= <-]. reflexivity.
  - destruct (trans env e) as [v|] eqn:E; [|discriminate]. destruct (transs env es) as [vs'|]; [|discriminate]. intros [= <-].
    cbn [map]. rewrite (trans_eval _ _ _ _ _ _ _ S E), (IH _ eq_refl). reflexivity.
Qed.

(** Definitions of existential variables that hold. *)
Definition sat (W : getters) (s : valuation) (ds : list (nat * (nat * list expr * nat))) : Prop :=
  forall x o ins k, In (x, (o, ins, k)) ds -> s x = W o (map (eval s) ins) k.

Lemma refs_sound W rho al s ds : forall env env', sat W s ds -> sound W rho al s env -> refs env ds = Some env' -> sound W rho al s env'.
Proof.
  induction ds as [|(x & (o & ins) & k) ds IH]; intros env env' H S; cbn [refs]; [intros [= <-]; exact S|].
  destruct (transs env ins) as [args|] eqn:T; [|discriminate]. apply IH.
  - intros y o' ins' k' I. apply H. right. exact I.
  - intros y v. cbn [look]. destruct (Nat.eqb_spec x y) as [<-|N].
    + intros [= <-]. cbn [veval]. rewrite (transs_eval _ _ _ _ _ _ _ S T). symmetry. apply H. left. reflexivity.
    + apply S.
Qed.

Lemma subs_in G rho al s env b : sound G rho al s env -> forall gs ss c, subs env gs b = Some ss ->
  Forall (fun g => truth (veval G rho al g) = true) gs -> In c (calls s b) ->
  exists u, In u ss /\ Forall (fun g => truth (veval G rho al g) = true) (s_guards u) /\ s_op u = fst c /\ map (veval G rho al) (s_args u) = snd c.
Proof.
  intros S. induction b as [o ins outs|e|a IHa b IHb|c0 a IHa|c0 a IHa b IHb]; intros gs ss c; cbn [subs calls].
  - destruct (transs env ins) as [args|] eqn:T; [|discriminate]. cbn. intros [= <-] F [<-|[]].
    eexists. split; [left; reflexivity|]. cbn. rewrite (transs_eval _ _ _ _ _ _ _ S T). auto.
  - contradiction.
  - destruct (subs env gs a) as [l|] eqn:A; [|discriminate]. destruct (subs env gs b) as [l'|] eqn:B; [|discriminate].
    intros [= <-] F I. apply in_app_or in I. destruct I as [I|I].
    + destruct (IHa _ _ _ A F I) as (u & U & X). exists u. split; [apply in_or_app; auto|exact X].
    + destruct (IHb _ _ _ B F I) as (u & U & X). exists u. split; [apply in_or_app; auto|exact X].
  - destruct (trans env c0) as [g|] eqn:T; [|discriminate]. intros H F. destruct (holds s c0) eqn:E; [|contradiction].
    intros I. refine (IHa _ _ _ H _ I). apply Forall_app. split; [exact F|]. constructor; [|constructor].
    rewrite (truth_holds s c0); [exact E|]. apply (trans_eval _ _ _ _ _ _ _ S T).
  - destruct (trans env c0) as [g|] eqn:T; [|discriminate].
    destruct (subs env (gs ++ [g]) a) as [l|] eqn:A; [|discriminate]. destruct (subs env (gs ++ [VNot g]) b) as [l'|] eqn:B; [|discriminate].
    intros [= <-] F I. pose proof (trans_eval _ _ _ _ _ _ _ S T) as V. destruct (holds s c0) eqn:E.
    + destruct (IHa _ _ c A) as (u & U & X); [|exact I|].
      { apply Forall_app. split; [exact F|]. constructor; [|constructor]. rewrite (truth_holds s c0 _ V). exact E. }
      exists u. split; [apply in_or_app; auto|exact X].
    + destruct (IHb _ _ c B) as (u & U & X); [|exact I|].
      { apply Forall_app. split; [exact F|]. constructor; [|constructor]. cbn [veval]. rewrite (truth_holds s c0 _ V), E. reflexivity. }
      exists u. split; [apply in_or_app; auto|exact X].
Qed.

(** ** The check *)
Definition seen_ok (ex seen : list nat) (st : cstate) : Prop :=
  incl (undef st) ex /\ forall x, In x ex -> (mem x (undef st) = false <-> In x seen).

Lemma mem_filter x r l : mem x (filter (fun y => negb (y =? r)) l) = mem x l && negb (x =? r).
Proof.
  destruct (mem x l && negb (x =? r)) eqn:E.
  - apply andb_true_iff in E. destruct E as (A & B). apply mem_in. apply filter_In. split; [apply mem_in; exact A|exact B].
  - apply mem_not_in. intros H. apply filter_In in H. destruct H as (A & B). apply mem_in in A. rewrite A, B in E. discriminate.
Qed.

Lemma check_outs_ok W s ex res o ins : forall outs k st st' seen,
  check_outs ex res o ins k outs st = Some st' -> seen_ok ex seen st -> sat W s (defs st) ->
  (forall j r, nth_error outs j = Some r -> s r = W o (map (eval s) ins) (k + j)) ->
  seen_ok ex (seen ++ outs) st' /\ sat W s (defs st').
Proof.
  induction outs as [|r outs IH]; intros k st st' seen C OK H E; cbn [check_outs] in C.
  - injection C as <-. rewrite app_nil_r. auto.
  - destruct (mem r ex || mem r res) eqn:M; [|discriminate].
    assert (E0 : s r = W o (map (eval s) ins) k) by (rewrite (E 0 r eq_refl); f_equal; lia).
    assert (E1 : forall j r0, nth_error outs j = Some r0 -> s r0 = W o (map (eval s) ins) (S k + j)).
    { intros j r0 N. rewrite (E (S j) r0 N). f_equal. lia. }
    replace (seen ++ r :: outs) with ((seen ++ [r]) ++ outs) by (rewrite <- app_assoc; reflexivity).
    destruct OK as (I & OK). destruct (mem r (undef st)) eqn:U.
    + eapply IH; [exact C| | |exact E1].
      * split; cbn [undef].
        -- intros x X. apply filter_In in X. apply I. apply X.
        -- intros x X. rewrite mem_filter, in_app_iff, <- (OK x X). cbn. destruct (mem x (undef st)); cbn; [|tauto].
           destruct (Nat.eqb_spec x r) as [->|N]; cbn; split; auto; try discriminate. intros [?|[?|[]]]; congruence.
      * cbn [defs]. intros x o' ins' k' X. apply in_app_or in X. destruct X as [X|[X|[]]]; [apply H; exact X|].
        injection X as <- <- <- <-. exact E0.
    + eapply IH; [exact C| |exact H|exact E1]. split; [exact I|].
      intros x X. rewrite in_app_iff, <- (OK x X). cbn. destruct (Nat.eqb_spec x r) as [->|N]; [tauto|].
      split; [auto|]. intros [?|[?|[]]]; congruence.
Qed.

Lemma check_outs_same ex res o ins : forall outs k st st', check_outs ex res o ins k outs st = Some st' ->
  incl (undef st) ex -> (forall x, In x ex -> In x outs -> mem x (undef st) = false) -> st' = st.
Proof.
  induction outs as [|r outs IH]; intros k st st' C I H; cbn [check_outs] in C; [congruence|].
  destruct (mem r ex || mem r res) eqn:M; [|discriminate].
  assert (mem r (undef st) = false) as U.
  { destruct (mem r (undef st)) eqn:U; [|reflexivity]. apply mem_in in U as U'. apply I in U'.
    rewrite (H r U' (or_introl eq_refl)) in U. discriminate. }
  rewrite U in C. eapply IH; eauto. intros x X Y. apply H; [exact X|right; exact Y].
Qed.

Lemma check_same P ex res b : forall st st', check P ex res b st = Some st' -> incl (undef st) ex ->
  (forall x, In x ex -> In x (in_results b) -> mem x (undef st) = false) -> st' = st.
Proof.
  induction b as [o ins outs|e|a IHa b IHb|c a IHa|c a IHa b IHb]; intros st st' C I H; cbn [check in_results] in *.
  - destruct (look o P) as [p|]; [|discriminate]. destruct (_ && _); [|discriminate].
    destruct (check_outs ex res o ins 0 outs st) as [st1|] eqn:O; [|discriminate]. destruct (forallb _ ins); [|discriminate].
    injection C as <-. eapply check_outs_same; eauto.
  - destruct (check_expr st e); congruence.
  - destruct (check P ex res a st) as [st1|] eqn:A; [|discriminate].
    assert (st1 = st) as -> by (apply (IHa st st1 A I); intros x X Y; apply H; [exact X|apply in_or_app; auto]).
    apply IHb; auto. intros x X Y. apply H; [exact X|apply in_or_app; auto].
  - destruct (check_expr st c); [|discriminate]. eauto.
  - destruct (check_expr st c); [|discriminate]. destruct (check P ex res a st) as [st1|] eqn:A; [|discriminate].
    assert (st1 = st) as -> by (apply (IHa st st1 A I); intros x X Y; apply H; [exact X|apply in_or_app; auto]).
    apply IHb; auto. intros x X Y. apply H; [exact X|apply in_or_app; auto].
Qed.

Lemma check_ok W s P ex res b : forall st st' seen, check P ex res b st = Some st' -> unconditional ex seen b ->
  seen_ok ex seen st -> sat W s (defs st) -> results_agree W s b ->
  seen_ok ex (seen ++ in_results b) st' /\ sat W s (defs st').
Proof.
  induction b as [o ins outs|e|a IHa b IHb|c a IHa|c a IHa b IHb]; intros st st' seen C U OK H R.
  - cbn [check in_results] in *. destruct (look o P) as [p|]; [|discriminate]. destruct (_ && _); [|discriminate].
    destruct (check_outs ex res o ins 0 outs st) as [st1|] eqn:O; [|discriminate]. destruct (forallb _ ins); [|discriminate].
    injection C as <-. eapply check_outs_ok; eauto.
  - cbn [check in_results] in *. destruct (check_expr st e); [|discriminate]. injection C as <-. rewrite app_nil_r. auto.
  - cbn [check in_results unconditional results_agree] in *. destruct U as (U1 & U2). destruct R as (R1 & R2).
    destruct (check P ex res a st) as [st1|] eqn:A; [|discriminate].
    destruct (IHa _ _ _ A U1 OK H R1) as (OK1 & H1). rewrite app_assoc. eapply IHb; eauto.
  - assert (st' = st) as ->.
    { eapply check_same; [exact C|apply OK|]. intros x X Y. apply OK; [exact X|]. apply (U x X Y). }
    split; [|exact H]. split; [apply OK|]. intros x X. rewrite (proj2 OK x X), in_app_iff. split; [auto|]. intros [Y|Y]; [exact Y|apply (U x X Y)].
  - assert (st' = st) as ->.
    { eapply check_same; [exact C|apply OK|]. intros x X Y. apply OK; [exact X|]. apply (U x X Y). }
    split; [|exact H]. split; [apply OK|]. intros x X. rewrite (proj2 OK x X), in_app_iff. split; [auto|]. intros [Y|Y]; [exact Y|apply (U x X Y)].
Qed.

Lemma check_arity P ex res b s : forall st st' c, check P ex res b st = Some st' -> In c (calls s b) ->
  exists p, look (fst c) P = Some p /\ length (snd c) = length (params p).
Proof.
  induction b as [o ins outs|e|a IHa b IHb|c0 a IHa|c0 a IHa b IHb]; intros st st' c C I; cbn [check calls] in *.
  - destruct I as [<-|[]]. cbn. destruct (look o P) as [p|]; [|discriminate].
    destruct (Nat.eqb_spec (length ins) (length (params p))) as [E|]; [|discriminate]. exists p. rewrite map_length. auto.
  - contradiction.
  - destruct (check P ex res a st) as [st1|] eqn:A; [|discriminate]. apply in_app_or in I. destruct I; eauto.
  - destruct (check_expr st c0); [|discriminate]. destruct (holds s c0); [eauto|contradiction].
  - destruct (check_expr st c0); [|discriminate]. destruct (check P ex res a st) as [st1|] eqn:A; [|discriminate].
    destruct (holds s c0); eauto.
Qed.

Lemma param_sound G al s p : sound G s al s (param_env p).
Proof. intros x v H. apply look_in, in_map_iff in H. destruct H as (y & [= <- <-] & _). reflexivity. Qed.
Lemma combine_sound G rho al s' ps : forall args, map s' ps = map (veval G rho al) args -> sound G rho al s' (combine ps args).
Proof.
  induction ps as [|x ps IH]; intros args E y v; cbn [combine look]; [discriminate|].
  destruct args as [|a args]; [discriminate|]. cbn in E. injection E as E1 E2. cbn [combine look].
  destruct (Nat.eqb_spec x y) as [<-|N]; [intros [= <-]; congruence|]. apply IH; exact E2.
Qed.
Lemma exists_inputs ps : forall v : list Z, NoDup ps -> length v = length ps -> exists s : valuation, map s ps = v.
Proof.
  induction ps as [|x ps IH]; intros v N L; destruct v as [|z v]; try discriminate; [exists (fun _ => 0%Z); reflexivity|].
  inversion N as [|? ? N1 N2]; subst. destruct (IH v N2) as (s & E); [cbn in L; lia|].
  exists (fun y => if y =? x then z else s y). cbn [map]. rewrite Nat.eqb_refl. f_equal. rewrite <- E. apply map_ext_in.
  intros y Y. destruct (Nat.eqb_spec y x) as [->|]; [contradiction|reflexivity].
Qed.

Section Main.
  Variable P : prog.
  Hypothesis T : terms_ok P.
  Hypothesis WF : well_formed P.

  Definition good (a : nat * list Z) (z : Z) : Prop :=
    inputs P a /\ declared_to_terminate P a /\ declared_measure P a z.

  Lemma positive a z : good a z -> (z > 0)%Z.
  Proof.
    intros ((p & L & N) & (p1 & L1 & D) & (p2 & L2 & M)). rewrite L in L1, L2. injection L1 as <-. injection L2 as <-.
    apply look_in in L as I. destruct (T _ _ I) as (t & m & Tt & Tm & H). destruct WF as (_ & WF'). destruct (WF' _ _ I) as (DI & _).
    assert (NP : NoDup (params p)).
    { unfold distinct in DI. clear -DI. induction (params p); [constructor|]. cbn in DI. inversion DI; subst. constructor; [|auto].
      intros X. apply H1. apply in_or_app. auto. }
    destruct (exists_inputs (params p) (snd a) NP N) as (s & E).
    destruct (H (fun _ _ _ => 0%Z) s) as (H1 & _).
    pose proof (trans_eval _ _ (fun _ => 0%Z) _ _ _ _ (param_sound (fun _ _ _ => 0%Z) _ s p) Tt) as V1.
    pose proof (trans_eval _ _ (fun _ => 0%Z) _ _ _ _ (param_sound (fun _ _ _ => 0%Z) _ s p) Tm) as V2.
    rewrite V2, (M s E) in H1. apply H1. rewrite (truth_holds s (term p) _ V1). apply D. exact E.
  Qed.

  Lemma step_good a b z : good a z -> expands P a b -> exists z', good b z' /\ (z' < z)%Z /\ fst b <> gap.
  Proof.
    intros ((p & L & N) & (p1 & L1 & D) & (p2 & L2 & M)) (p3 & bd & W & s & L3 & DB & (IN & IR) & R & C).
    rewrite L in L1, L2, L3. injection L1 as <-. injection L2 as <-. injection L3 as <-.
    apply look_in in L as I. destruct (T _ _ I) as (t & m & Tt & Tm & H). destruct WF as (_ & WF'). destruct (WF' _ _ I) as (DI & WD).
    destruct (H W s) as (_ & H2). rewrite DB in H2. destruct H2 as (ds & env & ss & CB & RF & SS & F).
    unfold check_body in CB. destruct (check P (existentials p) (results p) bd _) as [st|] eqn:CH; [|discriminate].
    destruct (undef st); [|discriminate]. injection CB as <-.
    pose proof (trans_eval _ _ (fun _ => 0%Z) _ _ _ _ (param_sound W _ s p) Tt) as V1.
    pose proof (trans_eval _ _ (fun _ => 0%Z) _ _ _ _ (param_sound W _ s p) Tm) as V2.
    destruct (check_ok W s P (existentials p) (results p) bd _ _ [] CH (WD _ DB)) as (_ & SA).
    { split; [intros x X; exact X|]. intros x X. pose proof (mem_not_in x (existentials p)). cbn [undef In]. tauto. }
    { intros x o ins k []. }
    { exact R. }
    pose proof (refs_sound W s (fun _ => 0%Z) s _ _ _ SA (param_sound W _ s p) RF) as SE.
    destruct (subs_in _ _ _ _ _ _ SE [] ss b SS (Forall_nil _) C) as (u & U & GU & EO & EA).
    rewrite Forall_forall in F. destruct (F _ U) as (NG & p' & t' & m' & L' & Tt' & Tm' & X1 & X2); [|exact GU|].
    { rewrite (truth_holds s (term p) _ V1). apply D. exact IN. }
    rewrite EO in L', NG. rewrite V2, (M s IN) in X2.
    destruct (check_arity _ _ _ _ _ _ _ _ CH C) as (p'' & L'' & LN). rewrite L' in L''. injection L'' as <-.
    exists (veval W s (fun _ => 0%Z) m'). split; [|split; [lia|exact NG]].
    split; [exists p'; auto|]. split.
    - exists p'. split; [exact L'|]. intros s' E. unfold with_inputs in E. rewrite <- EA in E.
      pose proof (trans_eval _ _ _ _ _ _ _ (combine_sound W s (fun _ => 0%Z) s' _ _ E) Tt') as V. rewrite (truth_holds s' (term p') _ V) in X1. exact X1.
    - exists p'. split; [exact L'|]. intros s' E. unfold with_inputs in E. rewrite <- EA in E.
      symmetry. apply (trans_eval _ _ _ _ _ _ _ (combine_sound W s (fun _ => 0%Z) s' _ _ E) Tm').
  Qed.

  Lemma good_acc n : forall a z, good a z -> (Z.to_nat z <= n)%nat -> Acc (fun y x => expands P x y) a.
  Proof.
    induction n as [|n IH]; intros a z Gd L.
    - pose proof (positive _ _ Gd). lia.
    - constructor. intros b E. destruct (step_good _ _ _ Gd E) as (z' & G' & LT & _).
      apply (IH b z' G'). pose proof (positive _ _ G'). lia.
  Qed.
  Lemma good_steps n a b : steps P n a b -> forall z, good a z -> exists z', good b z' /\ (z' + Z.of_nat n <= z)%Z /\ (n <> 0 -> fst b <> gap).
  Proof.
    induction 1 as [a|n a b c E S IH]; intros z Gd; [exists z; repeat split; try apply Gd; try lia; congruence|].
    destruct (step_good _ _ _ Gd E) as (z1 & G1 & L1 & N1). destruct (IH _ G1) as (z2 & G2 & L2 & N2).
    exists z2. split; [exact G2|]. split; [lia|]. intros _. destruct n as [|n]; [|apply N2; discriminate].
    inversion S; subst. exact N1.
  Qed.
  Lemma measured a : inputs P a -> exists z, declared_measure P a z.
  Proof.
    intros (p & L & N). apply look_in in L as I. destruct (T _ _ I) as (t & m & Tt & Tm & H).
    destruct WF as (_ & WF'). destruct (WF' _ _ I) as (DI & _).
    assert (NP : NoDup (params p)).
    { unfold distinct in DI. clear -DI. induction (params p); [constructor|]. cbn in DI. inversion DI; subst. constructor; [|auto].
      intros X. apply H1. apply in_or_app. auto. }
    destruct (exists_inputs (params p) (snd a) NP N) as (s & E).
    exists (eval s (measure p)). exists p. split; [exact L|]. intros s' E'. unfold with_inputs in E'.
    rewrite <- (trans_eval _ _ (fun _ => 0%Z) _ _ _ _ (param_sound (fun _ _ _ => 0%Z) _ s p) Tm).
    symmetry. apply (trans_eval (fun _ _ _ => 0%Z) s (fun _ => 0%Z) s' (param_env p) (measure p) m); [|exact Tm].
    intros x v X. apply look_in, in_map_iff in X. destruct X as (y & [= <- <-] & Y). cbn [veval].
    rewrite <- E in E'. clear -E' Y. induction (params p) as [|q l IH]; [contradiction|]. cbn in E'. injection E' as E1 E2.
    destruct Y as [->|Y]; [congruence|auto].
  Qed.
End Main.

Theorem terminates P a : terms_ok P -> well_formed P -> inputs P a -> declared_to_terminate P a ->
  Acc (fun y x => expands P x y) a.
Proof.
  intros T WF I D. destruct (measured P T WF a I) as (z & M).
  apply (good_acc P T WF (Z.to_nat z) a z); [split; auto|lia].
Qed.
Theorem bounded P a b n z : terms_ok P -> well_formed P -> inputs P a -> declared_to_terminate P a -> declared_measure P a z ->
  steps P n a b -> (Z.of_nat n < z)%Z /\ declared_to_terminate P b /\ (n <> 0 -> fst b <> gap).
Proof.
  intros T WF I D M S. destruct (good_steps P T WF n a b S z) as (z' & G' & L & N); [split; auto|].
  pose proof (positive P T WF _ _ G'). split; [lia|]. split; [apply G'|exact N].
Qed.
