From Coq Require Import List Bool Arith ZArith Lia.
Import ListNotations.
From Verif Require Import IoModel IoSpec IoProofs.
Local Open Scope nat_scope.

Lemma vexpr_ind' (Q : vexpr -> Prop) :
  (forall z, Q (VInt z)) -> (forall x, Q (VVar x)) -> (forall x, Q (VAlias x)) ->
  (forall a b, Q a -> Q b -> Q (VAdd a b)) -> (forall a b, Q a -> Q b -> Q (VLt a b)) -> (forall a b, Q a -> Q b -> Q (VEq a b)) ->
  (forall a, Q a -> Q (VNot a)) -> (forall o k args, Forall Q args -> Q (VGet o k args)) -> forall e, Q e.
Proof.
  intros H1 H2 H3 H4 H5 H6 H7 H8. fix IH 1. intros [z|x|x|a b|a b|a b|a|o k args].
  - apply H1. - apply H2. - apply H3. - apply H4; apply IH. - apply H5; apply IH. - apply H6; apply IH. - apply H7; apply IH.
  - apply H8. induction args as [|a args IHl]; constructor; [apply IH|exact IHl].
Qed.

(** The local variables of an expression. *)
Fixpoint al (e : vexpr) : list nat :=
  match e with
  | VAlias x => [x]
  | VAdd p q | VLt p q | VEq p q => al p ++ al q
  | VNot p => al p
  | VGet _ _ args => flat_map al args
  | VInt _ | VVar _ => []
  end.
Fixpoint wal (b : vbody) : list nat :=
  match b with
  | WAcc _ args eqs => flat_map al args ++ flat_map (fun q => al (fst q) ++ al (snd q)) eqs
  | WPure e => al e
  | WAnd p q => wal p ++ wal q
  | WImp c p => al c ++ wal p
  | WIf c p q => al c ++ wal p ++ wal q
  end.

Lemma veval_ext G rho a1 a2 e : (forall x, In x (al e) -> a1 x = a2 x) -> veval G rho a1 e = veval G rho a2 e.
Proof.
  induction e as [z|x|x|a b IHa IHb|a b IHa IHb|a b IHa IHb|a IHa|o k args IH] using vexpr_ind'; intros H; cbn [veval al] in *; try reflexivity.
  - apply H. left. reflexivity.
  - rewrite IHa, IHb; auto; intros x X; apply H, in_or_app; auto.
  - rewrite IHa, IHb; auto; intros x X; apply H, in_or_app; auto.
  - rewrite IHa, IHb; auto; intros x X; apply H, in_or_app; auto.
  - rewrite IHa; auto.
  - f_equal. apply map_ext_in. intros e I. rewrite Forall_forall in IH. apply IH; [exact I|].
    intros x X. apply H. apply in_flat_map. eauto.
Qed.
Lemma wcond_ext G rho a1 a2 w : (forall x, In x (wal w) -> a1 x = a2 x) -> (wcond G rho a1 w <-> wcond G rho a2 w) /\ wperms G rho a1 w = wperms G rho a2 w.
Proof.
  induction w as [o args eqs|e|p IHp q IHq|c p IHp|c p IHp q IHq]; intros H; cbn [wcond wperms wal] in *.
  - split.
    + rewrite !Forall_forall. split; intros F q I; specialize (F q I);
        rewrite (veval_ext G rho a1 a2 (fst q)), (veval_ext G rho a1 a2 (snd q)) in *; auto; intros x X; apply H, in_or_app; right;
        apply in_flat_map; exists q; (split; [exact I|apply in_or_app; auto]).
    + do 2 f_equal. apply map_ext_in. intros e I. apply veval_ext. intros x X. apply H, in_or_app. left. apply in_flat_map. eauto.
  - rewrite (veval_ext G rho a1 a2 e H). split; reflexivity.
  - destruct IHp as (A & B); [intros x X; apply H, in_or_app; auto|]. destruct IHq as (C & D); [intros x X; apply H, in_or_app; auto|].
    split; [tauto|congruence].
  - destruct IHp as (A & B); [intros x X; apply H, in_or_app; auto|].
    rewrite (veval_ext G rho a1 a2 c); [|intros x X; apply H, in_or_app; auto]. rewrite B. split; [tauto|reflexivity].
  - destruct IHp as (A & B); [intros x X; apply H, in_or_app; right; apply in_or_app; auto|].
    destruct IHq as (C & D); [intros x X; apply H, in_or_app; right; apply in_or_app; auto|].
    rewrite (veval_ext G rho a1 a2 c); [|intros x X; apply H, in_or_app; auto]. rewrite B, D. split; [|reflexivity].
    destruct (truth _); assumption.
Qed.

(** ** Replacing *)
Lemma replace_eval G rho t a d e : t a = veval G rho t d -> veval G rho t (replace a d e) = veval G rho t e.
Proof.
  intros E. induction e as [z|x|x|p q IHa IHb|p q IHa IHb|p q IHa IHb|p IHa|o k args IH] using vexpr_ind'; cbn [veval replace]; try congruence.
  - destruct (Nat.eqb_spec x a) as [->|N]; [congruence|reflexivity].
  - f_equal. rewrite map_map. apply map_ext_in. intros e I. rewrite Forall_forall in IH. apply IH. exact I.
Qed.
Lemma wreplace_eval G rho t a d w : t a = veval G rho t d ->
  (wcond G rho t (wreplace a d w) <-> wcond G rho t w) /\ wperms G rho t (wreplace a d w) = wperms G rho t w.
Proof.
  intros E. induction w as [o args eqs|e|p IHp q IHq|c p IHp|c p IHp q IHq]; cbn [wcond wperms wreplace].
  - split.
    + rewrite Forall_map. split; apply Forall_impl; intros q; cbn [fst snd]; rewrite !replace_eval; auto.
    + rewrite map_map. do 2 f_equal. apply map_ext. intros e. apply replace_eval. exact E.
  - rewrite replace_eval by exact E. split; reflexivity.
  - destruct IHp as (A & B), IHq as (C & D). split; [tauto|congruence].
  - destruct IHp as (A & B). rewrite replace_eval by exact E. rewrite B. split; [tauto|reflexivity].
  - destruct IHp as (A & B), IHq as (C & D). rewrite replace_eval by exact E. rewrite B, D. split; [|reflexivity]. destruct (truth _); assumption.
Qed.
Lemma replace_al a d e x : In x (al (replace a d e)) -> (In x (al e) /\ x <> a) \/ (In a (al e) /\ In x (al d)).
Proof.
  induction e as [z|y|y|p q IHa IHb|p q IHa IHb|p q IHa IHb|p IHa|o k args IH] using vexpr_ind'; cbn [al replace]; intros I; try contradiction.
  - destruct (Nat.eqb_spec y a) as [->|N]; [right; cbn; auto|]. destruct I as [<-|[]]. left. cbn; auto.
  - rewrite !in_app_iff in *. tauto.
  - rewrite !in_app_iff in *. tauto.
  - rewrite !in_app_iff in *. tauto.
  - auto.
  - apply in_flat_map in I. destruct I as (e' & I & X). apply in_map_iff in I. destruct I as (e & <- & I).
    rewrite Forall_forall in IH. destruct (IH e I X) as [(A & B)|(A & B)].
    + left. split; [|exact B]. apply in_flat_map. eauto.
    + right. split; [|exact B]. apply in_flat_map. eauto.
Qed.
Lemma wreplace_al a d w x : In x (wal (wreplace a d w)) -> (In x (wal w) /\ x <> a) \/ (In a (wal w) /\ In x (al d)).
Proof.
  induction w as [o args eqs|e|p IHp q IHq|c p IHp|c p IHp q IHq]; cbn [wal wreplace]; intros I.
  - rewrite in_app_iff in *. destruct I as [I|I].
    + destruct (replace_al a d (VGet o 0 args) x I) as [(A & B)|(A & B)]; [left|right]; (split; [|exact B]); [left; exact A|apply in_or_app; left; exact A].
    + apply in_flat_map in I. destruct I as (q' & I & X). apply in_map_iff in I. destruct I as (q & <- & I). cbn [fst snd] in X.
      assert (In x (al (fst q) ++ al (snd q)) /\ x <> a \/ In a (al (fst q) ++ al (snd q)) /\ In x (al d)) as Y.
      { rewrite !in_app_iff. apply in_app_or in X. destruct X as [X|X]; apply replace_al in X; tauto. }
      destruct Y as [(A & B)|(A & B)]; [left|right]; (split; [|exact B]).
      * right. apply in_flat_map. eauto.
      * apply in_or_app. right. apply in_flat_map. eauto.
  - apply replace_al. exact I.
  - rewrite !in_app_iff in *. tauto.
  - rewrite !in_app_iff in *. destruct I as [I|I]; [apply replace_al in I|]; tauto.
  - rewrite !in_app_iff in *. destruct I as [I|[I|I]]; [apply replace_al in I| |]; tauto.
Qed.

(** ** Resolving *)
Definition vsat (G : getters) (rho t : nat -> Z) (ds : list (nat * vexpr)) : Prop :=
  forall x d, In (x, d) ds -> t x = veval G rho t d.
Fixpoint ordered (seen : list nat) (ds : list (nat * vexpr)) : Prop :=
  match ds with [] => True | (x, d) :: ds' => incl (al d) seen /\ ordered (seen ++ [x]) ds' end.
Definition subst_defs (a : nat) (d : vexpr) (ds : list (nat * vexpr)) :=
  map (fun q => if fst q =? a then q else (fst q, replace a d (snd q))) ds.

Lemma vsat_subst G rho t a d ds : vsat G rho t ds -> t a = veval G rho t d -> vsat G rho t (subst_defs a d ds).
Proof.
  intros S E x e I. apply in_map_iff in I. destruct I as ((y & f) & Q & I). cbn [fst snd] in Q.
  destruct (y =? a); injection Q as <- <-; [apply S; exact I|]. rewrite replace_eval by exact E. apply S. exact I.
Qed.
Lemma names_subst a d ds : map fst (subst_defs a d ds) = map fst ds.
Proof. unfold subst_defs. rewrite map_map. apply map_ext. intros q. destruct (fst q =? a); reflexivity. Qed.

Lemma resolve_same G rho t : forall aliases ds w w', resolve aliases ds w = Some w' -> vsat G rho t ds ->
  (wcond G rho t w' <-> wcond G rho t w) /\ wperms G rho t w' = wperms G rho t w.
Proof.
  induction aliases as [|a rest IH]; intros ds w w' R S; cbn [resolve] in R; [injection R as <-; split; reflexivity|].
  destruct (look a ds) as [d|] eqn:L; [|discriminate]. apply look_in in L. pose proof (S _ _ L) as E.
  destruct (IH _ _ _ R (vsat_subst _ _ _ _ _ _ S E)) as (A & B). destruct (wreplace_eval G rho t a d w E) as (C & D).
  split; [tauto|congruence].
Qed.

Lemma ordered_subst a d : forall ds seen, ordered seen ds -> NoDup (map fst ds) ->
  (In (a, d) ds \/ In a seen) -> (In a seen -> incl (al d) seen) -> (In a seen -> ~ In a (map fst ds)) -> ordered seen (subst_defs a d ds).
Proof.
  induction ds as [|(x & e) ds IH]; intros seen O N H1 H2 H3; [exact Logic.I|]. cbn [ordered] in O. destruct O as (O1 & O2).
  cbn [map fst] in N. inversion N as [|? ? N1 N2]; subst. unfold subst_defs. cbn [map fst snd]. fold (subst_defs a d ds).
  destruct (Nat.eqb_spec x a) as [->|NE]; cbn [ordered].
  - assert (e = d) as ->.
    { destruct H1 as [[Q|Q]|Q]; [congruence| |].
      - exfalso. apply N1. apply in_map_iff. exists (a, d). auto.
      - exfalso. apply (H3 Q). left. reflexivity. }
    split; [exact O1|]. apply IH; auto.
    + right. apply in_or_app. right. left. reflexivity.
    + intros _ y Y. apply in_or_app. left. apply O1. exact Y.
  - split.
    + intros y Y. apply replace_al in Y. destruct Y as [(Y & _)|(A & Y)]; [apply O1; exact Y|]. apply H2; [apply O1; exact A|exact Y].
    + apply IH; auto.
      * destruct H1 as [[Q|Q]|Q]; [congruence|auto|right; apply in_or_app; auto].
      * intros Q. apply in_app_or in Q. destruct Q as [Q|[Q|[]]]; [|congruence]. intros y Y. apply in_or_app. left. apply H2; auto.
      * intros Q. apply in_app_or in Q. destruct Q as [Q|[Q|[]]]; [|congruence]. intros Y. apply (H3 Q). right. exact Y.
Qed.
Lemma ordered_not_self : forall ds seen x d, ordered seen ds -> NoDup (seen ++ map fst ds) -> In (x, d) ds -> ~ In x (al d).
Proof.
  induction ds as [|(y & e) ds IH]; intros seen x d O N I X; [contradiction|]. destruct O as (O1 & O2). destruct I as [[= <- <-]|I].
  - apply O1 in X. cbn [map fst] in N. apply NoDup_remove_2 in N. apply N. apply in_or_app. auto.
  - cbn [map fst] in N. eapply (IH (seen ++ [y])); eauto. rewrite <- app_assoc. exact N.
Qed.

Lemma look_nodup {A} x (d : A) ds : NoDup (map fst ds) -> In (x, d) ds -> look x ds = Some d.
Proof.
  induction ds as [|(y & e) ds IH]; cbn; intros N I; [contradiction|]. inversion N as [|? ? N1 N2]; subst.
  destruct (Nat.eqb_spec y x) as [E|NE].
  - subst y. destruct I as [Q|I]; [congruence|]. exfalso. apply N1. apply in_map_iff. exists (x, d). auto.
  - destruct I as [Q|I]; [congruence|auto].
Qed.

Lemma resolve_free : forall aliases ds w w' gone, resolve aliases ds w = Some w' -> ordered [] ds -> NoDup (map fst ds) ->
  (forall x, In x gone -> ~ In x (wal w)) ->
  (forall x y d, In x gone -> In (y, d) ds -> ~ In x (al d)) ->
  (forall x, In x (wal w') -> ~ In x (gone ++ aliases)) /\ (forall x, In x (wal w') -> In x (wal w) \/ In x (map fst ds)).
Proof.
  induction aliases as [|a rest IH]; intros ds w w' gone R O N H1 H2; cbn [resolve] in R.
  - injection R as <-. rewrite app_nil_r. split; [|auto]. intros x X Y. apply (H1 x Y X).
  - destruct (look a ds) as [d|] eqn:L; [|discriminate]. apply look_in in L. fold (subst_defs a d ds) in R.
    assert (SELF : ~ In a (al d)) by (apply (ordered_not_self ds [] a d O N L)).
    destruct (IH _ _ _ (gone ++ [a]) R) as (A & B).
    + apply ordered_subst; auto. intros [].
    + rewrite names_subst. exact N.
    + intros x X Y. apply wreplace_al in Y. destruct Y as [(Y & Z)|(Y & Z)].
      * apply in_app_or in X. destruct X as [X|[X|[]]]; [apply (H1 x X Y)|congruence].
      * apply in_app_or in X. destruct X as [X|[X|[]]]; [apply (H2 x a d X L Z)|subst; contradiction].
    + intros x y e X I Y. apply in_map_iff in I. destruct I as ((z & f) & Q & I). cbn [fst snd] in Q.
      destruct (Nat.eqb_spec z a) as [E|NE]; injection Q as <- <-.
      * subst z. assert (f = d) as -> by (apply (look_nodup a f ds N) in I; apply (look_nodup a d ds N) in L; congruence).
        apply in_app_or in X. destruct X as [X|[X|[]]]; [apply (H2 x a d X L Y)|subst; contradiction].
      * apply replace_al in Y. destruct Y as [(Y & Z)|(Y & Z)].
        -- apply in_app_or in X. destruct X as [X|[X|[]]]; [apply (H2 x z f X I Y)|congruence].
        -- apply in_app_or in X. destruct X as [X|[X|[]]]; [apply (H2 x a d X L Z)|subst; contradiction].
    + split.
      * intros x X Y. apply (A x X). rewrite <- app_assoc. exact Y.
      * intros x X. destruct (B x X) as [Y|Y]; [|rewrite names_subst in Y; auto].
        apply wreplace_al in Y. destruct Y as [(Y & _)|(_ & Y)]; [auto|]. right.
        (* aliases of definitions are defined *)
        assert (forall ds seen, ordered seen ds -> In (a, d) ds -> In x (seen ++ map fst ds)) as Q.
        { clear -Y. induction ds as [|(y & e) ds IH]; intros seen O I; [contradiction|]. destruct O as (O1 & O2). destruct I as [[= -> ->]|I].
          - apply in_or_app. left. apply O1. exact Y.
          - apply IH with (seen := seen ++ [y]) in O2; [|exact I]. rewrite <- app_assoc in O2. exact O2. }
        apply (Q ds [] O L).
Qed.

(** The definitions have a solution. *)
Lemma solution G rho : forall ds seen t0, ordered seen ds -> NoDup (seen ++ map fst ds) ->
  exists t, vsat G rho t ds /\ forall x, ~ In x (map fst ds) -> t x = t0 x.
Proof.
  induction ds as [|(y & d) ds IH]; intros seen t0 O N; [exists t0; split; [intros x d []|auto]|].
  destruct O as (O1 & O2). cbn [map fst] in N.
  destruct (IH (seen ++ [y]) (fun x => if x =? y then veval G rho t0 d else t0 x) O2) as (t & S & E); [rewrite <- app_assoc; exact N|].
  apply NoDup_remove in N as N'. destruct N' as (N1 & N2).
  assert (Q : forall x, In x seen -> t x = t0 x).
  { intros x X. rewrite E.
    - destruct (Nat.eqb_spec x y) as [->|]; [|reflexivity]. exfalso. apply N2, in_or_app. auto.
    - intros Y. clear -N1 X Y. induction seen as [|s seen IHs]; [contradiction|]. inversion N1; subst. destruct X as [->|X]; [|auto].
      apply H1, in_or_app. auto. }
  exists t. split.
  - intros x e [[= <- <-]|I]; [|apply S; exact I]. rewrite E by (intros Y; apply N2, in_or_app; auto). rewrite Nat.eqb_refl.
    apply veval_ext. intros x X. symmetry. apply Q, O1, X.
  - intros x X. cbn [map fst] in X. rewrite E; [|intros Y; apply X; right; exact Y].
    destruct (Nat.eqb_spec x y) as [->|]; [|reflexivity]. exfalso. apply X. left. reflexivity.
Qed.

(** ** Translating the body *)
Lemma tr_outs_sem G rho t s o args vs : map (veval G rho t) args = vs -> forall outs k ds eqs ds', tr_outs o args k outs ds = (eqs, ds') ->
  (forall r, In r outs -> s r = t r) ->
  incl ds ds' /\
  ((forall j r, nth_error outs j = Some r -> s r = G o vs (k + j)) -> Forall (fun q => veval G rho t (fst q) = veval G rho t (snd q)) eqs) /\
  (Forall (fun q => veval G rho t (fst q) = veval G rho t (snd q)) eqs -> vsat G rho t ds' -> forall j r, nth_error outs j = Some r -> s r = G o vs (k + j)).
Proof.
  intros V. induction outs as [|r outs IH]; intros k ds eqs ds' T ST; cbn [tr_outs] in T.
  - injection T as <- <-. do 2 (split; [firstorder|]). intros _ _ [|j] r X; discriminate.
  - assert (ST' : forall r0, In r0 outs -> s r0 = t r0) by (intros r0 X; apply ST; right; exact X).
    assert (SH : forall (Q : nat -> nat -> Prop), (Q r k /\ forall j r0, nth_error outs j = Some r0 -> Q r0 (S k + j)) <-> (forall j r0, nth_error (r :: outs) j = Some r0 -> Q r0 (k + j))).
    { intros Q. split.
      - intros (A & B) [|j] r0 X; cbn in X; [injection X as <-; rewrite Nat.add_0_r; exact A|]. replace (k + S j) with (S k + j) by lia. apply B. exact X.
      - intros A. split; [specialize (A 0 r eq_refl); rewrite Nat.add_0_r in A; exact A|]. intros j r0 X. replace (S k + j) with (k + S j) by lia. apply A. exact X. }
    rewrite <- (SH (fun r0 n => s r0 = G o vs n)).
    destruct (look r ds) as [d|] eqn:L.
    + destruct (tr_outs o args (S k) outs ds) as (eqs1 & ds1) eqn:T1. injection T as <- <-.
      destruct (IH _ _ _ _ T1 ST') as (A & B & C). split; [exact A|]. split.
      * intros (E & H). constructor; [|apply B; exact H]. cbn [fst snd veval]. rewrite V, <- (ST r (or_introl eq_refl)). symmetry. exact E.
      * intros F S. inversion F as [|? ? F1 F2]; subst. cbn [fst snd veval] in F1. split; [|apply C; assumption].
        rewrite (ST r (or_introl eq_refl)), <- F1. reflexivity.
    + destruct (IH _ _ _ _ T ST') as (A & B & C). split; [intros q Q; apply A, in_or_app; auto|]. split.
      * intros (_ & H). apply B. exact H.
      * intros F S. split; [|apply C; assumption]. rewrite (ST r (or_introl eq_refl)).
        assert (I : In (r, VGet o k args) ds') by (apply A, in_or_app; right; left; reflexivity). rewrite (S _ _ I). cbn [veval]. rewrite V. reflexivity.
Qed.

Lemma vsat_incl G rho t ds ds' : incl ds ds' -> vsat G rho t ds' -> vsat G rho t ds.
Proof. intros I S x d X. apply S, I, X. Qed.

Lemma tr_body_sem G rho t s env b : sound G rho t s env -> forall ds w ds', tr_body env b ds = Some (w, ds') ->
  (forall r, In r (in_results b) -> s r = t r) ->
  incl ds ds' /\ wperms G rho t w = calls s b /\
  (results_agree G s b /\ conditions s b -> wcond G rho t w) /\
  (wcond G rho t w -> vsat G rho t ds' -> results_agree G s b /\ conditions s b).
Proof.
  intros S. induction b as [o ins outs|e|a IHa b IHb|c a IHa|c a IHa b IHb]; intros ds w ds' T ST; cbn [tr_body in_results] in *.
  - destruct (transs env ins) as [args|] eqn:TA; [|discriminate]. destruct (tr_outs o args 0 outs ds) as (eqs & ds1) eqn:TO. injection T as <- <-.
    pose proof (transs_eval _ _ _ _ _ _ _ S TA) as V.
    destruct (tr_outs_sem G rho t s o args _ V outs 0 ds eqs ds1 TO ST) as (A & B & C). cbn [wperms calls results_agree conditions wcond]. rewrite V.
    split; [exact A|]. split; [reflexivity|]. split; [intros (H & _); apply B; exact H|]. intros H H'. split; [apply C; assumption|exact Logic.I].
  - destruct (trans env e) as [v|] eqn:TE; [|discriminate]. injection T as <- <-. cbn [wperms calls results_agree conditions wcond].
    rewrite (truth_holds s e _ (trans_eval _ _ _ _ _ _ _ S TE)). split; [intros q Q; exact Q|]. split; [reflexivity|]. split; tauto.
  - destruct (tr_body env a ds) as [(wa & ds1)|] eqn:TA; [|discriminate]. destruct (tr_body env b ds1) as [(wb & ds2)|] eqn:TB; [|discriminate].
    injection T as <- <-. destruct (IHa _ _ _ TA) as (A1 & A2 & A3 & A4); [intros r R; apply ST, in_or_app; auto|].
    destruct (IHb _ _ _ TB) as (B1 & B2 & B3 & B4); [intros r R; apply ST, in_or_app; auto|].
    cbn [wperms calls results_agree conditions wcond]. split; [intros q Q; auto|]. split; [congruence|]. split; [tauto|].
    intros (H1 & H2) H3. pose proof (A4 H1 (vsat_incl _ _ _ _ _ B1 H3)). pose proof (B4 H2 H3). tauto.
  - destruct (trans env c) as [v|] eqn:TE; [|discriminate]. destruct (tr_body env a ds) as [(wa & ds1)|] eqn:TA; [|discriminate].
    injection T as <- <-. destruct (IHa _ _ _ TA ST) as (A1 & A2 & A3 & A4).
    cbn [wperms calls results_agree conditions wcond]. rewrite (truth_holds s c _ (trans_eval _ _ _ _ _ _ _ S TE)), A2.
    split; [exact A1|]. split; [reflexivity|]. destruct (holds s c); split; try tauto; intros; try discriminate; auto.
  - destruct (trans env c) as [v|] eqn:TE; [|discriminate].
    destruct (tr_body env a ds) as [(wa & ds1)|] eqn:TA; [|discriminate]. destruct (tr_body env b ds1) as [(wb & ds2)|] eqn:TB; [|discriminate].
    injection T as <- <-. destruct (IHa _ _ _ TA) as (A1 & A2 & A3 & A4); [intros r R; apply ST, in_or_app; auto|].
    destruct (IHb _ _ _ TB) as (B1 & B2 & B3 & B4); [intros r R; apply ST, in_or_app; auto|].
    cbn [wperms calls results_agree conditions wcond]. rewrite (truth_holds s c _ (trans_eval _ _ _ _ _ _ _ S TE)), A2, B2.
    split; [intros q Q; auto|]. split; [reflexivity|].
    destruct (holds s c); split; auto. intros H1 H3. apply A4; [exact H1|]. apply (vsat_incl _ _ _ _ _ B1 H3).
Qed.

(** The definitions of the translation are those of the check. *)
Definition same_def (env : list (nat * vexpr)) (c : nat * (nat * list expr * nat)) (d : nat * vexpr) : Prop :=
  fst c = fst d /\ exists args, transs env (snd (fst (snd c))) = Some args /\ snd d = VGet (fst (fst (snd c))) (snd (snd c)) args.
Record lock (env : list (nat * vexpr)) (ex res : list nat) (base : list (nat * vexpr)) (st : cstate) (ds : list (nat * vexpr)) : Prop := {
  l_defs : exists l, ds = base ++ l /\ Forall2 (same_def env) (defs st) l;
  l_res : forall x, In x res -> look x ds <> None /\ mem x (undef st) = false;
  l_ex : forall x, In x ex -> (look x ds = None <-> mem x (undef st) = true);
  l_sub : incl (undef st) ex;
  l_nodup : NoDup (map fst ds);
  l_in : incl (map fst ds) (res ++ ex) }.

Lemma look_app {A} x (l l' : list (nat * A)) : look x (l ++ l') = match look x l with Some a => Some a | None => look x l' end.
Proof. induction l as [|(y & a) l IH]; cbn; [reflexivity|]. destruct (y =? x); auto. Qed.

Lemma nodup_snoc (l : list nat) a : NoDup l -> ~ In a l -> NoDup (l ++ [a]).
Proof.
  induction l as [|b l IH]; cbn; intros N I; [constructor; [intros []|constructor]|]. inversion N; subst. constructor.
  - intros X. apply in_app_or in X. destruct X as [X|[X|[]]]; [contradiction|subst; apply I; auto].
  - apply IH; auto.
Qed.
Lemma lock_outs env ex res base o ins args : transs env ins = Some args -> forall outs k st st' ds eqs ds',
  check_outs ex res o ins k outs st = Some st' -> tr_outs o args k outs ds = (eqs, ds') -> lock env ex res base st ds -> lock env ex res base st' ds'.
Proof.
  intros TA. induction outs as [|r outs IH]; intros k st st' ds eqs ds' C T L; cbn [check_outs tr_outs] in *; [injection C as <-; injection T as <- <-; exact L|].
  destruct (mem r ex || mem r res) eqn:M; [|discriminate].
  assert (look r ds = None <-> mem r (undef st) = true) as Q.
  { apply orb_true_iff in M. destruct M as [M|M]; apply mem_in in M; [apply (l_ex _ _ _ _ _ _ L r M)|].
    destruct (l_res _ _ _ _ _ _ L r M) as (A & B). rewrite B. split; [contradiction|discriminate]. }
  destruct (look r ds) as [d|] eqn:LK.
  - assert (mem r (undef st) = false) as U by (destruct (mem r (undef st)); [destruct Q as (_ & Q); specialize (Q eq_refl); discriminate|reflexivity]).
    rewrite U in C. destruct (tr_outs o args (S k) outs ds) as (eqs1 & ds1) eqn:T1. injection T as <- <-. eapply IH; eauto.
  - destruct Q as (U & _). specialize (U eq_refl). rewrite U in C. eapply IH; [exact C|exact T|].
    assert (RE : In r ex) by (apply (l_sub _ _ _ _ _ _ L), mem_in, U).
    split; cbn [undef defs].
    + destruct (l_defs _ _ _ _ _ _ L) as (l & -> & F). exists (l ++ [(r, VGet o k args)]). split; [rewrite app_assoc; reflexivity|].
      apply Forall2_app; [exact F|]. constructor; [|constructor]. split; [reflexivity|]. exists args. auto.
    + intros x X. destruct (l_res _ _ _ _ _ _ L x X) as (A & B). rewrite look_app, mem_filter, B. destruct (look x ds); [split; [discriminate|reflexivity]|contradiction].
    + intros x X. rewrite look_app, mem_filter. cbn [look]. pose proof (l_ex _ _ _ _ _ _ L x X) as H.
      destruct (look x ds) as [d|] eqn:LX.
      * split; [discriminate|]. intros Y. apply andb_true_iff in Y. destruct Y as (Y & _). apply H in Y. discriminate.
      * destruct H as (H & _). rewrite (H eq_refl). cbn [andb]. rewrite (Nat.eqb_sym x r). destruct (r =? x); cbn; split; congruence.
    + intros x X. apply filter_In in X. apply (l_sub _ _ _ _ _ _ L), X.
    + rewrite map_app. apply nodup_snoc; [apply (l_nodup _ _ _ _ _ _ L)|]. intros X. apply in_map_iff in X. destruct X as ((y & d) & E & X).
      cbn in E. subst y. revert LK X. clear. induction ds as [|(y & e) ds IH]; cbn; [contradiction|]. destruct (Nat.eqb_spec y r) as [E|NE]; [discriminate|].
      intros LK [Q|X]; [congruence|auto].
    + rewrite map_app. apply incl_app; [apply (l_in _ _ _ _ _ _ L)|]. intros x [<-|[]]. apply in_or_app. auto.
Qed.
Lemma lock_body P env ex res base b : forall st st' ds w ds', check P ex res b st = Some st' -> tr_body env b ds = Some (w, ds') ->
  lock env ex res base st ds -> lock env ex res base st' ds'.
Proof.
  induction b as [o ins outs|e|a IHa b IHb|c a IHa|c a IHa b IHb]; intros st st' ds w ds' C T L; cbn [check tr_body] in *.
  - destruct (look o P) as [p|]; [|discriminate]. destruct (_ && _); [|discriminate].
    destruct (check_outs ex res o ins 0 outs st) as [st1|] eqn:O; [|discriminate]. destruct (forallb _ ins); [|discriminate]. injection C as <-.
    destruct (transs env ins) as [args|] eqn:TA; [|discriminate]. destruct (tr_outs o args 0 outs ds) as (eqs & ds1) eqn:TO. injection T as <- <-.
    eapply lock_outs; eauto.
  - destruct (check_expr st e); [|discriminate]. destruct (trans env e); [|discriminate]. injection C as <-. injection T as <- <-. exact L.
  - destruct (check P ex res a st) as [st1|] eqn:CA; [|discriminate].
    destruct (tr_body env a ds) as [(wa & ds1)|] eqn:TA; [|discriminate]. destruct (tr_body env b ds1) as [(wb & ds2)|] eqn:TB; [|discriminate].
    injection T as <- <-. eauto.
  - destruct (check_expr st c); [|discriminate]. destruct (trans env c); [|discriminate]. destruct (tr_body env a ds) as [(wa & ds1)|] eqn:TA; [|discriminate].
    injection T as <- <-. eauto.
  - destruct (check_expr st c); [|discriminate]. destruct (trans env c); [|discriminate]. destruct (check P ex res a st) as [st1|] eqn:CA; [|discriminate].
    destruct (tr_body env a ds) as [(wa & ds1)|] eqn:TA; [|discriminate]. destruct (tr_body env b ds1) as [(wb & ds2)|] eqn:TB; [|discriminate].
    injection T as <- <-. eauto.
Qed.

(** Names in translated expressions. *)
Lemma trans_names env e v : trans env e = Some v -> forall x, In x (names e) -> look x env <> None.
Proof.
  revert v. induction e as [z|x|a IHa b IHb|a IHa b IHb|a IHa b IHb|a IHa]; intros v; cbn [trans names]; intros T y Y.
  - contradiction.
  - destruct Y as [<-|[]]. congruence.
  - destruct (trans env a), (trans env b); try discriminate. apply in_app_or in Y. destruct Y; eauto.
  - destruct (trans env a), (trans env b); try discriminate. apply in_app_or in Y. destruct Y; eauto.
  - destruct (trans env a), (trans env b); try discriminate. apply in_app_or in Y. destruct Y; eauto.
  - destruct (trans env a); try discriminate. eauto.
Qed.
Lemma transs_names env es vs : transs env es = Some vs -> forall x, In x (flat_map names es) -> look x env <> None.
Proof.
  revert vs. induction es as [|e es IH]; intros vs T x X; cbn in *; [contradiction|].
  destruct (trans env e) as [v|] eqn:E; [|discriminate]. destruct (transs env es) as [vs'|]; [|discriminate].
  apply in_app_or in X. destruct X; [eapply trans_names; eauto|eauto].
Qed.
Lemma trans_al env e v x : trans env e = Some v -> In x (al v) -> exists y u, In y (names e) /\ look y env = Some u /\ In x (al u).
Proof.
  revert v. induction e as [z|y|a IHa b IHb|a IHa b IHb|a IHa b IHb|a IHa]; intros v; cbn [trans names].
  - intros [= <-] [].
  - intros L X. exists y, v. cbn; auto.
  - destruct (trans env a), (trans env b); try discriminate. intros [= <-] X. cbn [al] in X. apply in_app_or in X.
    destruct X as [X|X]; [destruct (IHa _ eq_refl X) as (y & u & A & B)|destruct (IHb _ eq_refl X) as (y & u & A & B)]; exists y, u; (split; [apply in_or_app; auto|auto]).
  - destruct (trans env a), (trans env b); try discriminate. intros [= <-] X. cbn [al] in X. apply in_app_or in X.
    destruct X as [X|X]; [destruct (IHa _ eq_refl X) as (y & u & A & B)|destruct (IHb _ eq_refl X) as (y & u & A & B)]; exists y, u; (split; [apply in_or_app; auto|auto]).
  - destruct (trans env a), (trans env b); try discriminate. intros [= <-] X. cbn [al] in X. apply in_app_or in X.
    destruct X as [X|X]; [destruct (IHa _ eq_refl X) as (y & u & A & B)|destruct (IHb _ eq_refl X) as (y & u & A & B)]; exists y, u; (split; [apply in_or_app; auto|auto]).
  - destruct (trans env a); try discriminate. intros [= <-] X. apply (IHa _ eq_refl X).
Qed.
Lemma transs_al env es vs x : transs env es = Some vs -> In x (flat_map al vs) -> exists y u, In y (flat_map names es) /\ look y env = Some u /\ In x (al u).
Proof.
  revert vs. induction es as [|e es IH]; intros vs; cbn [transs flat_map]; [intros [= <-] []|].
  destruct (trans env e) as [v|] eqn:E; [|discriminate]. destruct (transs env es) as [vs'|]; [|discriminate]. intros [= <-] X.
  cbn [flat_map] in X. apply in_app_or in X. destruct X as [X|X].
  - destruct (trans_al _ _ _ _ E X) as (y & u & A & B). exists y, u. split; [apply in_or_app; auto|auto].
  - destruct (IH _ eq_refl X) as (y & u & A & B). exists y, u. split; [apply in_or_app; auto|auto].
Qed.

Lemma transs_some env es : (forall x, In x (flat_map names es) -> look x env <> None) -> exists vs, transs env es = Some vs.
Proof.
  assert (H : forall e, (forall x, In x (names e) -> look x env <> None) -> exists v, trans env e = Some v).
  { induction e as [z|y|a IHa b IHb|a IHa b IHb|a IHa b IHb|a IHa]; intros N; cbn [trans names] in *; eauto.
    - specialize (N y (or_introl eq_refl)). destruct (look y env); [eauto|contradiction].
    - destruct IHa as (u & ->); [intros x X; apply N, in_or_app; auto|]. destruct IHb as (v & ->); [intros x X; apply N, in_or_app; auto|]. eauto.
    - destruct IHa as (u & ->); [intros x X; apply N, in_or_app; auto|]. destruct IHb as (v & ->); [intros x X; apply N, in_or_app; auto|]. eauto.
    - destruct IHa as (u & ->); [intros x X; apply N, in_or_app; auto|]. destruct IHb as (v & ->); [intros x X; apply N, in_or_app; auto|]. eauto.
    - destruct IHa as (u & ->); [exact N|]. exists (VNot u). reflexivity. }
  induction es as [|e es IH]; intros N; cbn [transs]; [eauto|]. cbn in N.
  destruct (H e) as (v & ->); [intros x X; apply N, in_or_app; auto|]. destruct IH as (vs & ->); [intros x X; apply N, in_or_app; auto|]. eauto.
Qed.

(** refs succeeds only if definitions refer to parameters and earlier definitions. *)
Fixpoint in_order (seen : list nat) (ds : list (nat * (nat * list expr * nat))) : Prop :=
  match ds with [] => True | (x, (o, ins, k)) :: ds' => incl (flat_map names ins) seen /\ in_order (x :: seen) ds' end.
Lemma refs_order ds : forall env env', refs env ds = Some env' -> in_order (map fst env) ds.
Proof.
  induction ds as [|(x & (o & ins) & k) ds IH]; intros env env'; cbn [refs in_order]; [auto|].
  destruct (transs env ins) as [args|] eqn:T; [|discriminate]. intros R. split.
  - intros y Y. pose proof (transs_names _ _ _ T y Y) as L. destruct (look y env) eqn:E; [|contradiction]. apply look_in in E. apply in_map_iff. exists (y, v). auto.
  - apply IH in R. exact R.
Qed.

(** Existential variables of accepted bodies are among the results of their operations. *)
Lemma check_outs_res ex res o ins : forall outs k st st', check_outs ex res o ins k outs st = Some st' -> incl outs (res ++ ex).
Proof.
  induction outs as [|r outs IH]; intros k st st' C x X; [contradiction|]. cbn [check_outs] in C.
  destruct (mem r ex || mem r res) eqn:M; [|discriminate]. destruct X as [<-|X]; [|eapply IH; eauto].
  apply in_or_app. apply orb_true_iff in M. rewrite !mem_in in M. tauto.
Qed.
Lemma check_res P ex res b : forall st st', check P ex res b st = Some st' -> incl (in_results b) (res ++ ex).
Proof.
  induction b as [o ins outs|e|a IHa b IHb|c a IHa|c a IHa b IHb]; intros st st' C; cbn [check in_results] in *.
  - destruct (look o P) as [p|]; [|discriminate]. destruct (_ && _); [|discriminate].
    destruct (check_outs ex res o ins 0 outs st) as [st1|] eqn:O; [|discriminate]. eapply check_outs_res; eauto.
  - intros x [].
  - destruct (check P ex res a st) as [st1|] eqn:A; [|discriminate]. apply incl_app; eauto.
  - destruct (check_expr st c); [|discriminate]. eauto.
  - destruct (check_expr st c); [|discriminate]. destruct (check P ex res a st) as [st1|] eqn:A; [|discriminate]. apply incl_app; eauto.
Qed.

(** ** Open *)
Lemma nodup_l (l l' : list nat) : NoDup (l ++ l') -> NoDup l.
Proof. induction l as [|a l IH]; intros N; [constructor|]. cbn in N. inversion N; subst. constructor; [|auto]. intros X. apply H1, in_or_app. auto. Qed.
Lemma nodup_r (l l' : list nat) : NoDup (l ++ l') -> NoDup l'.
Proof. induction l as [|a l IH]; intros N; [exact N|]. cbn in N. inversion N; subst. auto. Qed.
Lemma nodup_disj (l l' : list nat) : NoDup (l ++ l') -> forall x, In x l -> In x l' -> False.
Proof. induction l as [|a l IH]; intros N x X Y; [contradiction|]. cbn in N. inversion N; subst. destruct X as [->|X]; [apply H1, in_or_app; auto|eauto]. Qed.

Lemma look_combine x (l : list nat) (vs : list vexpr) : length vs = length l -> In x l -> exists u, look x (combine l vs) = Some u.
Proof.
  revert vs. induction l as [|a l IH]; intros vs E I; [contradiction|]. destruct vs as [|v vs]; [discriminate|]. cbn.
  destruct (Nat.eqb_spec a x) as [->|N]; [eauto|]. destruct I as [->|I]; [contradiction|]. apply IH; [cbn in E; lia|exact I].
Qed.

Section Open.
  Variables (P : prog) (o : nat) (p : op) (b : body) (args : list vexpr).
  Variables (st : cstate) (env' : list (nat * vexpr)).
  Hypothesis CH : check P (existentials p) (results p) b {| undef := existentials p; defs := [] |} = Some st.
  Hypothesis UN : undef st = [].
  Hypothesis RF : refs (param_env p) (defs st) = Some env'.
  Hypothesis DI : distinct p.
  Hypothesis LEN : length args = length (params p).
  Hypothesis FREE : flat_map al args = [].

  Lemma params_nodup : NoDup (params p).
  Proof. exact (nodup_l _ _ DI). Qed.
  Lemma not_param x : In x (results p ++ existentials p) -> ~ In x (params p).
  Proof. intros X Y. exact (nodup_disj _ _ DI x Y X). Qed.
  Lemma base_names : map fst (open_defs o p args) = results p.
  Proof.
    unfold open_defs, number. rewrite map_map. cbn [fst].
    assert (H : forall (l : list nat) k, map snd (combine (seq k (length l)) l) = l) by (induction l as [|a l IH]; intros k; cbn; [reflexivity|rewrite IH; reflexivity]).
    apply H.
  Qed.
  Lemma base_in x d : In (x, d) (open_defs o p args) -> exists k, nth_error (results p) k = Some x /\ d = VGet o k args.
  Proof.
    unfold open_defs, number. intros I. apply in_map_iff in I. destruct I as ((k & r) & [= <- <-] & I). exists k. split; [|reflexivity].
    assert (H : forall (l : list nat) j, In (k, r) (combine (seq j (length l)) l) -> j <= k /\ nth_error l (k - j) = Some r).
    { clear. induction l as [|a l IH]; intros j I; [contradiction|]. cbn [length seq combine] in I. destruct I as [[= <- <-]|I].
      - rewrite Nat.sub_diag. auto.
      - destruct (IH _ I) as (A & B). split; [lia|]. replace (k - j) with (S (k - S j)) by lia. exact B. }
    apply H in I. rewrite Nat.sub_0_r in I. apply I.
  Qed.
  Lemma open_look y u : look y (open_env p args) = Some u -> (In y (params p) /\ al u = []) \/ (~ In y (params p) /\ In y (results p ++ existentials p) /\ u = VAlias y).
  Proof.
    unfold open_env. rewrite look_app. destruct (look y (combine (params p) args)) as [v|] eqn:L.
    - intros [= <-]. left. apply look_in in L. split; [eapply in_combine_l; exact L|]. apply in_combine_r in L.
      destruct (al v) as [|z l] eqn:A; [reflexivity|]. exfalso. assert (X : In z (flat_map al args)) by (apply in_flat_map; exists v; rewrite A; cbn; auto).
      rewrite FREE in X. contradiction.
    - intros M. apply look_in in M. apply in_map_iff in M. destruct M as (z & [= <- <-] & M). right. split; [|auto].
      intros X. destruct (look_combine z _ _ LEN X) as (u & E). congruence.
  Qed.
  Lemma lock0 : lock (open_env p args) (existentials p) (results p) (open_defs o p args) {| undef := existentials p; defs := [] |} (open_defs o p args).
  Proof.
    pose proof (nodup_r _ _ DI) as R. pose proof (nodup_disj _ _ R) as DJ.
    assert (LK : forall x, look x (open_defs o p args) = None <-> ~ In x (results p)).
    { intros x. rewrite <- base_names. clear. induction (open_defs o p args) as [|(y & d) l IH]; cbn; [tauto|]. destruct (Nat.eqb_spec y x) as [->|N]; [|tauto].
      split; [discriminate|]. intros H. exfalso. apply H. auto. }
    split; cbn [undef defs].
    - exists []. rewrite app_nil_r. split; [reflexivity|constructor].
    - intros x X. split; [rewrite LK; auto|]. apply mem_not_in. intros Y. exact (DJ x X Y).
    - intros x X. rewrite LK, mem_in. split; [auto|]. intros _ Y. apply (DJ x Y X).
    - intros x X. exact X.
    - rewrite base_names. exact (nodup_l _ _ R).
    - rewrite base_names. intros x X. apply in_or_app. auto.
  Qed.

  Lemma ordered_app l1 : forall seen l2, ordered seen l1 -> ordered (seen ++ map fst l1) l2 -> ordered seen (l1 ++ l2).
  Proof.
    induction l1 as [|(x & d) l1 IH]; intros seen l2 O1 O2; cbn [app map fst] in *; [rewrite app_nil_r in O2; exact O2|].
    destruct O1 as (A & B). split; [exact A|]. apply IH; [exact B|]. rewrite <- app_assoc. exact O2.
  Qed.
  Lemma ordered_free l : forall seen, (forall x d, In (x, d) l -> al d = []) -> ordered seen l.
  Proof.
    induction l as [|(x & d) l IH]; intros seen H; [exact Logic.I|]. split; [rewrite (H x d (or_introl eq_refl)); intros y []|].
    apply IH. intros y e I. apply (H y e). right. exact I.
  Qed.
  Lemma ordered_defs cs l : Forall2 (same_def (open_env p args)) cs l -> forall seen0 seen, in_order seen0 cs ->
    (forall y, In y seen0 -> In y (params p) \/ In y seen) -> ordered seen l.
  Proof.
    induction 1 as [|(x & (o' & ins) & k) (x' & d) cs l (E & args' & T & D) F IH]; intros seen0 seen O H; [exact Logic.I|].
    cbn [fst snd] in *. subst x' d. destruct O as (O1 & O2). split.
    - cbn [al]. intros y Y. destruct (transs_al _ _ _ _ T Y) as (z & u & Z & L & A). apply O1 in Z. destruct (open_look _ _ L) as [(_ & A0)|(NP & _ & ->)].
      + rewrite A0 in A. contradiction.
      + destruct A as [<-|[]]. destruct (H _ Z); [contradiction|assumption].
    - eapply IH; [exact O2|]. intros y [<-|Y]; [right; apply in_or_app; right; left; reflexivity|]. destruct (H y Y); [auto|]. right. apply in_or_app. auto.
  Qed.

  Section Translated.
    Variables (w0 w : vbody) (ds : list (nat * vexpr)).
    Hypothesis TR : tr_body (open_env p args) b (open_defs o p args) = Some (w0, ds).
    Hypothesis RS : resolve (results p ++ existentials p) ds w0 = Some w.

    Lemma locked : lock (open_env p args) (existentials p) (results p) (open_defs o p args) st ds.
    Proof. eapply lock_body; [exact CH|exact TR|exact lock0]. Qed.
    Lemma is_ordered : ordered [] ds.
    Proof.
      destruct (l_defs _ _ _ _ _ _ locked) as (l & -> & F). apply ordered_app.
      - apply ordered_free. intros x d I. destruct (base_in _ _ I) as (k & _ & ->). exact FREE.
      - eapply ordered_defs; [exact F|exact (refs_order _ _ _ RF)|]. intros y Y. left. apply in_map_iff in Y. destruct Y as ((a & v) & E & Y).
        cbn in E. subst a. apply in_map_iff in Y. destruct Y as (z & [= <- _] & Y). exact Y.
    Qed.
    Lemma tr_al b' : incl (in_results b') (results p ++ existentials p) -> forall ds0 w' ds1, tr_body (open_env p args) b' ds0 = Some (w', ds1) ->
      incl (wal w') (results p ++ existentials p).
    Proof.
      assert (A1 : forall e v, trans (open_env p args) e = Some v -> incl (al v) (results p ++ existentials p)).
      { intros e v T x X. destruct (trans_al _ _ _ _ T X) as (y & u & _ & L & A). destruct (open_look _ _ L) as [(_ & A0)|(_ & I & ->)]; [rewrite A0 in A; contradiction|].
        destruct A as [<-|[]]. exact I. }
      assert (A2 : forall es vs, transs (open_env p args) es = Some vs -> incl (flat_map al vs) (results p ++ existentials p)).
      { intros e v T x X. destruct (transs_al _ _ _ _ T X) as (y & u & _ & L & A). destruct (open_look _ _ L) as [(_ & A0)|(_ & I & ->)]; [rewrite A0 in A; contradiction|].
        destruct A as [<-|[]]. exact I. }
      induction b' as [o' ins outs|e|a IHa c IHb|c a IHa|c a IHa d IHb]; intros IR ds0 w' ds1 T; cbn [tr_body in_results] in *.
      - destruct (transs (open_env p args) ins) as [vs|] eqn:TA; [|discriminate]. destruct (tr_outs o' vs 0 outs ds0) as (eqs & ds2) eqn:TO. injection T as <- <-.
        cbn [wal]. apply incl_app; [apply (A2 _ _ TA)|]. revert TO. generalize 0 as k. revert ds0 eqs IR. induction outs as [|r outs IH]; intros ds0 eqs IR k TO; cbn [tr_outs] in TO.
        + injection TO as <- <-. intros x [].
        + assert (IR' : incl outs (results p ++ existentials p)) by (intros x X; apply IR; right; exact X).
          destruct (look r ds0).
          * destruct (tr_outs o' vs (S k) outs ds0) as (eqs1 & ds3) eqn:T1. injection TO as <- <-. cbn [flat_map fst snd al]. apply incl_app; [|eapply IH; eauto].
            apply incl_app; [apply (A2 _ _ TA)|]. intros x [<-|[]]. apply IR. left. reflexivity.
          * eapply IH; eauto.
      - destruct (trans (open_env p args) e) as [v|] eqn:TE; [|discriminate]. injection T as <- <-. apply (A1 _ _ TE).
      - destruct (tr_body (open_env p args) a ds0) as [(wa & ds2)|] eqn:TA; [|discriminate]. destruct (tr_body (open_env p args) c ds2) as [(wb & ds3)|] eqn:TB; [|discriminate].
        injection T as <- <-. apply incl_app_inv in IR. destruct IR. cbn [wal]. apply incl_app; eauto.
      - destruct (trans (open_env p args) c) as [v|] eqn:TE; [|discriminate]. destruct (tr_body (open_env p args) a ds0) as [(wa & ds2)|] eqn:TA; [|discriminate].
        injection T as <- <-. cbn [wal]. apply incl_app; eauto.
      - destruct (trans (open_env p args) c) as [v|] eqn:TE; [|discriminate].
        destruct (tr_body (open_env p args) a ds0) as [(wa & ds2)|] eqn:TA; [|discriminate]. destruct (tr_body (open_env p args) d ds2) as [(wb & ds3)|] eqn:TB; [|discriminate].
        injection T as <- <-. apply incl_app_inv in IR. destruct IR. cbn [wal]. apply incl_app; [eauto|]. apply incl_app; eauto.
    Qed.
    Lemma no_aliases x : ~ In x (wal w).
    Proof.
      intros X. destruct (resolve_free _ _ _ _ [] RS is_ordered (l_nodup _ _ _ _ _ _ locked)) as (A & B); [intros y []|intros y z d []|].
      apply (A x X). cbn [app]. destruct (B x X) as [Y|Y]; [apply (tr_al b (check_res _ _ _ _ _ _ CH) _ _ _ TR); exact Y|].
      apply (l_in _ _ _ _ _ _ locked). exact Y.
    Qed.
    Lemma args_same G rho a1 a2 : map (veval G rho a1) args = map (veval G rho a2) args.
    Proof.
      apply map_ext_in. intros e I. apply veval_ext. intros x X. exfalso. assert (Y : In x (flat_map al args)) by (apply in_flat_map; eauto).
      rewrite FREE in Y. exact Y.
    Qed.
    Lemma open_sound G rho t s : map s (params p) = map (veval G rho t) args -> (forall x, In x (results p ++ existentials p) -> s x = t x) ->
      sound G rho t s (open_env p args).
    Proof.
      intros E ST x v. unfold open_env. rewrite look_app. destruct (look x (combine (params p) args)) as [u|] eqn:L.
      - intros [= <-]. apply (combine_sound G rho t s _ _ E x u L).
      - intros M. apply look_in in M. apply in_map_iff in M. destruct M as (z & [= <- <-] & M). cbn [veval]. symmetry. apply ST. exact M.
    Qed.

    Lemma open_meaning G rho alpha R :
      wcond G rho alpha w -> R = wperms G rho alpha w ->
      exists s, instance G o p (map (veval G rho alpha) args) s /\ results_agree G s b /\ conditions s b /\ R = calls s b.
    Proof.
      intros C ->. destruct (solution G rho ds [] (fun _ => 0%Z) is_ordered (l_nodup _ _ _ _ _ _ locked)) as (t & S & _).
      destruct (exists_inputs (params p) (map (veval G rho alpha) args) params_nodup) as (s0 & E0); [rewrite map_length; exact LEN|].
      set (s := fun x => if mem x (params p) then s0 x else t x).
      assert (E : map s (params p) = map (veval G rho alpha) args).
      { rewrite <- E0. apply map_ext_in. intros x X. unfold s. apply mem_in in X. rewrite X. reflexivity. }
      assert (ST : forall x, In x (results p ++ existentials p) -> s x = t x).
      { intros x X. unfold s. apply not_param in X. apply mem_not_in in X. rewrite X. reflexivity. }
      assert (SO : sound G rho t s (open_env p args)) by (apply open_sound; [rewrite E; apply args_same|exact ST]).
      destruct (tr_body_sem G rho t s _ b SO _ _ _ TR) as (_ & A & _ & B); [intros r X; apply ST, (check_res _ _ _ _ _ _ CH), X|].
      destruct (resolve_same G rho t _ _ _ _ RS S) as (C1 & C2).
      destruct (wcond_ext G rho alpha t w) as (D1 & D2); [intros x X; exfalso; apply (no_aliases x X)|].
      destruct B as (B1 & B2); [apply C1, D1, C|exact S|].
      exists s. split; [|split; [exact B1|split; [exact B2|congruence]]].
      split; [exact E|]. intros k r K. rewrite ST by (apply in_or_app; left; eapply nth_error_In; exact K).
      assert (I : In (r, VGet o k args) (open_defs o p args)).
      { unfold open_defs, number. apply in_map_iff. exists (k, r). split; [reflexivity|]. clear -K.
        assert (H : forall (l : list nat) j i, nth_error l i = Some r -> In (j + i, r) (combine (seq j (length l)) l)).
        { induction l as [|a l IH]; intros j [|i] H; try discriminate; cbn in *; [injection H as ->; left; f_equal; lia|].
          right. replace (j + S i) with (S j + i) by lia. apply IH. exact H. }
        apply (H _ 0 k K). }
      destruct (l_defs _ _ _ _ _ _ locked) as (l & EQ & _). rewrite (S r (VGet o k args)); [|rewrite EQ; apply in_or_app; auto].
      cbn [veval]. f_equal. apply args_same.
    Qed.

    Lemma meaning_open G rho alpha s : unconditional (existentials p) [] b ->
      instance G o p (map (veval G rho alpha) args) s -> results_agree G s b -> conditions s b ->
      wcond G rho alpha w /\ calls s b = wperms G rho alpha w.
    Proof.
      intros U (E & IR) RA CO. rewrite (args_same G rho alpha s) in E, IR.
      assert (SO : sound G rho s s (open_env p args)) by (apply open_sound; [exact E|reflexivity]).
      destruct (tr_body_sem G rho s s _ b SO _ _ _ TR) as (_ & A & B & _); [reflexivity|].
      destruct (check_ok G s P _ _ b _ _ [] CH U) as (_ & SA).
      { split; [intros x X; exact X|]. intros x X. pose proof (mem_not_in x (existentials p)). cbn [undef In]. tauto. }
      { intros x o' ins k []. }
      { exact RA. }
      assert (S : vsat G rho s ds).
      { destruct (l_defs _ _ _ _ _ _ locked) as (l & -> & F). intros x d I. apply in_app_or in I. destruct I as [I|I].
        - destruct (base_in _ _ I) as (k & K & ->). cbn [veval]. apply IR. exact K.
        - clear -F I SA SO. induction F as [|(x' & (o' & ins) & k) (x'' & d') cs l (E & args' & T & D) F IH]; [contradiction|]. cbn [fst snd] in *.
          destruct I as [[= -> ->]|I].
          + subst. cbn [veval]. rewrite (transs_eval _ _ _ _ _ _ _ SO T). apply SA. left. reflexivity.
          + apply IH; [intros y o2 ins2 k2 Y; apply SA; right; exact Y|exact I]. }
      destruct (resolve_same G rho s _ _ _ _ RS S) as (C1 & C2).
      destruct (wcond_ext G rho alpha s w) as (D1 & D2); [intros x X; exfalso; apply (no_aliases x X)|].
      split; [apply D1, C1, B; split; assumption|congruence].
    Qed.
  End Translated.
End Open.

Lemma al_free_args args : (forall e, In e args -> al e = []) -> flat_map al args = [].
Proof. induction args as [|a args IH]; intros H; cbn; [reflexivity|]. rewrite (H a (or_introl eq_refl)), IH; [reflexivity|]. intros e I. apply H. right. exact I. Qed.
Lemma of_caller_al e : of_caller e = true -> al e = [].
Proof.
  induction e as [z|y|y|p q IHa IHb|p q IHa IHb|p q IHa IHb|p IHa|o k args IH] using vexpr_ind'; cbn [of_caller al]; intros H; try discriminate; auto.
  - apply andb_true_iff in H. destruct H. rewrite IHa, IHb; auto.
  - apply andb_true_iff in H. destruct H. rewrite IHa, IHb; auto.
  - apply andb_true_iff in H. destruct H. rewrite IHa, IHb; auto.
  - apply al_free_args. intros e I. rewrite Forall_forall in IH. rewrite forallb_forall in H. auto.
Qed.

Theorem opened P o p b args w G rho alpha R :
  accepted P p b -> distinct p -> forallb of_caller args = true -> length args = length (params p) ->
  open_body o p b args = Some w ->
  (wcond G rho alpha w /\ R = wperms G rho alpha w -> meaning G o p b (map (veval G rho alpha) args) R) /\
  (unconditional (existentials p) [] b -> meaning G o p b (map (veval G rho alpha) args) R -> wcond G rho alpha w /\ R = wperms G rho alpha w).
Proof.
  intros (ds & env & CB & RF) DI FR LEN OB.
  assert (FREE : flat_map al args = []). { apply al_free_args. rewrite forallb_forall in FR. intros e I. apply of_caller_al, FR, I. }
  unfold check_body in CB. destruct (check P (existentials p) (results p) b _) as [st|] eqn:CH; [|discriminate].
  destruct (undef st) eqn:UN; [|discriminate]. injection CB as <-.
  unfold open_body in OB. destruct (tr_body (open_env p args) b (open_defs o p args)) as [(w0 & ds)|] eqn:TR; [|discriminate].
  split.
  - intros (C & E). eapply open_meaning; eauto.
  - intros U (s & I & RA & CO & ->). eapply meaning_open; eauto.
Qed.

Lemma resolve_some : forall aliases ds w, incl aliases (map fst ds) -> exists w', resolve aliases ds w = Some w'.
Proof.
  induction aliases as [|a l IH]; intros ds w I; cbn [resolve]; [eauto|].
  assert (exists d, look a ds = Some d) as (d & ->).
  { assert (X : In a (map fst ds)) by (apply I; left; reflexivity). clear -X. induction ds as [|(y & e) ds IH]; [contradiction|]. cbn. destruct (Nat.eqb_spec y a) as [E|N]; [eauto|].
    destruct X as [X|X]; [contradiction|auto]. }
  fold (subst_defs a d ds). apply IH. rewrite names_subst. intros x X. apply I. right. exact X.
Qed.
Lemma tr_some env b : (forall x, In x (body_names b) -> look x env <> None) -> forall ds, exists r, tr_body env b ds = Some r.
Proof.
  assert (T : forall e, (forall x, In x (names e) -> look x env <> None) -> exists v, trans env e = Some v).
  { intros e H. destruct (transs_some env [e]) as (vs & E); [cbn; rewrite app_nil_r; exact H|]. cbn in E. destruct (trans env e); [eauto|discriminate]. }
  induction b as [o ins outs|e|a IHa b IHb|c a IHa|c a IHa b IHb]; intros N ds; cbn [tr_body body_names] in *.
  - destruct (transs_some env ins N) as (vs & ->). destruct (tr_outs o vs 0 outs ds). eauto.
  - destruct (T e N) as (v & ->). exists (WPure v, ds). reflexivity.
  - destruct (IHa (fun x X => N x (in_or_app _ _ _ (or_introl X))) ds) as ((wa & ds1) & ->).
    destruct (IHb (fun x X => N x (in_or_app _ _ _ (or_intror X))) ds1) as ((wb & ds2) & ->). eauto.
  - destruct (T c (fun x X => N x (in_or_app _ _ _ (or_introl X)))) as (v & ->).
    destruct (IHa (fun x X => N x (in_or_app _ _ _ (or_intror X))) ds) as ((wa & ds1) & ->). eauto.
  - destruct (T c (fun x X => N x (in_or_app _ _ _ (or_introl X)))) as (v & ->).
    destruct (IHa (fun x X => N x (in_or_app _ _ _ (or_intror (in_or_app _ _ _ (or_introl X))))) ds) as ((wa & ds1) & ->).
    destruct (IHb (fun x X => N x (in_or_app _ _ _ (or_intror (in_or_app _ _ _ (or_intror X))))) ds1) as ((wb & ds2) & ->). eauto.
Qed.
Theorem opens P o p b args : accepted P p b -> distinct p -> known_names p b -> length args = length (params p) ->
  exists w, open_body o p b args = Some w.
Proof.
  intros (ds & env & CB & RF) DI KN LEN. unfold check_body in CB. destruct (check P (existentials p) (results p) b _) as [st|] eqn:CH; [|discriminate].
  destruct (undef st) eqn:UN; [|discriminate]. injection CB as <-. unfold open_body.
  destruct (tr_some (open_env p args) b) with (ds := open_defs o p args) as ((w0 & ds) & TR).
  { intros x X. apply KN in X. unfold open_env. rewrite look_app. apply in_app_or in X. destruct X as [X|X].
    - destruct (look_combine x (params p) args LEN X) as (u & ->). discriminate.
    - destruct (look x (combine (params p) args)); [discriminate|]. clear -X. induction (results p ++ existentials p) as [|y l IH]; [contradiction|]. cbn.
      destruct (Nat.eqb_spec y x) as [E|N]; [discriminate|]. destruct X as [X|X]; [contradiction|auto]. }
  rewrite TR. apply resolve_some.
  pose proof (lock_body P (open_env p args) (existentials p) (results p) (open_defs o p args) b _ _ _ _ _ CH TR (lock0 o p args DI)) as L.
  intros x X. assert (look x ds <> None) as LX.
  { apply in_app_or in X. destruct X as [X|X]; [apply (l_res _ _ _ _ _ _ L x X)|]. rewrite (l_ex _ _ _ _ _ _ L x X), UN. discriminate. }
  destruct (look x ds) as [d|] eqn:E; [|contradiction]. apply look_in in E. apply in_map_iff. exists (x, d). auto.
Qed.
