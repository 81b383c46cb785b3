From Coq Require Import Bool Arith List Lia ZifyBool.
From Verif Require Import ClsModel ClsSpec ClsProofs.
Import ListNotations.

(** * Types and their instantiated superclasses *)
Section Types.
Context (n : nat) (tb : table) (WF : wf_table n tb).
Notation wft := (wf_texpr n tb 0).

Lemma wf_texpr_inst k j t args : wf_texpr n tb k t -> length args = k -> Forall (wf_texpr n tb j) args ->
  wf_texpr n tb j (inst args t).
Proof.
  intros W L F. induction t as [i|c l IH] using texpr_ind'.
  - inversion W; subst. cbn [inst]. rewrite Forall_forall in F. apply F. apply nth_In. lia.
  - inversion W; subst. cbn [inst]. constructor; auto. { now rewrite map_length. }
    apply Forall_forall. intros x Hx. apply in_map_iff in Hx as (y & <- & Hy).
    rewrite Forall_forall in IH, H3. auto.
Qed.

Lemma wft_head t : wft t -> exists c l, t = TApp c l /\ c < n /\ length l = c_nvars (tb c) /\ Forall wft l.
Proof. intros W. inversion W; subst; [lia|]. eauto 10. Qed.

(** The direct base of a type. *)
Definition base (t : texpr) : option texpr :=
  match t with
  | TVar _ => None
  | TApp c args => option_map (fun pl => TApp (fst pl) (map (inst args) (snd pl))) (c_super (tb c))
  end.
Definition head (t : texpr) : cid := match t with TVar _ => 0 | TApp c _ => c end.

Lemma below_base t u b : base t = Some b -> below tb b u -> below tb t u.
Proof.
  destruct t as [|c args]; [discriminate|]. cbn. destruct (c_super (tb c)) as [(p, l)|] eqn:S; [|discriminate].
  intros [= <-] H. eapply below_step; eauto.
Qed.
Lemma below_inv t u : below tb t u -> t = u \/ exists b, base t = Some b /\ below tb b u.
Proof.
  destruct 1 as [|c args p l u S H]; auto. right. eexists. split; [|exact H]. cbn. now rewrite S.
Qed.
Lemma base_wf t b : wft t -> base t = Some b -> wft b /\ head b < head t.
Proof.
  intros W E. destruct (wft_head _ W) as (c & l & -> & C & LEN & F). cbn in E.
  destruct (c_super (tb c)) as [(p, m)|] eqn:S; [|discriminate]. injection E as <-. cbn [fst snd head].
  assert (0 < c) as P. { destruct c; [|lia]. pose proof (wf_object _ _ WF) as [X _]. unfold object_id in X. congruence. }
  destruct (wf_super _ _ WF c) as (q & k & E & Q1 & Q2 & Q3); [lia|]. rewrite S in E. injection E as <- <-.
  split; auto. constructor; [lia| |].
  - now rewrite map_length.
  - apply Forall_forall. intros x Hx. apply in_map_iff in Hx as (y & <- & Hy).
    rewrite Forall_forall in Q3. eapply wf_texpr_inst; eauto.
Qed.
Lemma base_none t : wft t -> base t = None -> t = TApp 0 [].
Proof.
  intros W E. destruct (wft_head _ W) as (c & l & -> & C & LEN & F). cbn in E.
  destruct (c_super (tb c)) as [(p, m)|] eqn:S; [discriminate|].
  assert (c = 0) as ->. { eapply super_none; eauto. unfold superclass. now rewrite S. }
  pose proof (wf_object _ _ WF) as [_ X]. unfold object_id in X. rewrite X in LEN. destruct l; [auto|discriminate].
Qed.
Lemma below_trans a b c : below tb a b -> below tb b c -> below tb a c.
Proof. induction 1; auto. intros. eapply below_step; eauto. Qed.
Lemma below_wf t u : wft t -> below tb t u -> wft u /\ head u <= head t /\ (head u = head t -> u = t).
Proof.
  intros W B. induction B as [t|c args p l u S B IH]; [auto|].
  assert (base (TApp c args) = Some (TApp p (map (inst args) l))) as E by (cbn; now rewrite S).
  destruct (base_wf _ _ W E) as [W2 H2]. destruct (IH W2) as (W3 & H3 & _).
  split; auto. cbn [head] in *. split; lia.
Qed.
Lemma below_object t : wft t -> below tb t (TApp 0 []).
Proof.
  remember (head t) as h eqn:H. revert t H. induction h as [h IH] using lt_wf_ind. intros t -> W.
  destruct (base t) as [b|] eqn:E.
  - destruct (base_wf _ _ W E). eapply below_base; eauto.
  - rewrite (base_none _ W E). constructor.
Qed.
Lemma below_linear a b c : below tb a b -> below tb a c -> below tb b c \/ below tb c b.
Proof.
  induction 1 as [t|k args p l u S B IH]; auto. intros H. inversion H; subst.
  - right. eapply below_step; eauto.
  - match goal with K : c_super _ = _ |- _ => rewrite S in K; injection K as <- <- end. auto.
Qed.
Lemma wft_object : wft (TApp 0 []).
Proof.
  pose proof (wf_object _ _ WF) as [_ X]. pose proof (wf_two _ _ WF). unfold object_id in X.
  constructor; [lia|now rewrite X|constructor].
Qed.
Lemma wft_none : wft (TApp 1 []).
Proof.
  pose proof (wf_none _ _ WF) as [_ X]. pose proof (wf_two _ _ WF). unfold none_id in X.
  constructor; [lia|now rewrite X|constructor].
Qed.
Lemma texpr_dec (a b : texpr) : a = b \/ a <> b.
Proof. destruct (texpr_eqb a b) eqn:E; [left; now apply texpr_eqb_spec|right; intros K; apply texpr_eqb_spec in K; congruence]. Qed.
Lemma below_dec t u : wft t -> below tb t u \/ ~ below tb t u.
Proof.
  remember (head t) as h eqn:H. revert t H. induction h as [h IH] using lt_wf_ind. intros t -> W.
  destruct (texpr_dec t u) as [->|N]; [left; constructor|].
  destruct (base t) as [b|] eqn:E.
  - destruct (base_wf _ _ W E) as [W2 H2]. destruct (IH _ H2 b eq_refl W2) as [Y|Y].
    + left. eapply below_base; eauto.
    + right. intros K. apply below_inv in K as [K|(b' & E' & K)]; [auto|]. rewrite E in E'. injection E' as <-. auto.
  - right. intros K. apply below_inv in K as [K|(b' & E' & K)]; [auto|congruence].
Qed.

(** Two incomparable types have different ancestors with the same base. *)
Lemma branch t u : wft t -> wft u -> ~ below tb t u -> ~ below tb u t ->
  exists s s' p, below tb t s /\ below tb u s' /\ base s = Some p /\ base s' = Some p /\ s <> s'.
Proof.
  remember (head u) as h eqn:H. revert u H. induction h as [h IH] using lt_wf_ind. intros u -> W V N1 N2.
  destruct (base u) as [b|] eqn:E.
  2:{ exfalso. rewrite (base_none _ V E) in N1. apply N1. now apply below_object. }
  destruct (base_wf _ _ V E) as [V2 H2].
  destruct (below_dec t b W) as [Y|Y].
  - (* t is below the base of u: find the child of b above t *)
    assert (forall x, wft x -> below tb x b -> x = b \/ exists s, below tb x s /\ base s = Some b) as CH.
    { clear -n. intros x _ B. induction B as [x|c args p l u S B IH]; auto. right.
      destruct IH as [E|(s & S1 & S2)].
      - exists (TApp c args). split; [constructor|]. cbn. rewrite S. cbn. now rewrite E.
      - exists s. split; auto. eapply below_step; eauto. }
    destruct (CH t W Y) as [->|(s & S1 & S2)].
    + exfalso. apply N2. eapply below_base; [exact E|constructor].
    + exists s, u, b. repeat split; auto. constructor. intros ->. auto.
  - destruct (below_dec b t V2) as [Z|Z].
    + exfalso. apply N2. eapply below_base; eauto.
    + destruct (IH _ H2 b eq_refl W V2 Y Z) as (s & s' & p & S1 & S2 & S3 & S4 & S5).
      exists s, s', p. repeat split; auto. eapply below_base; eauto.
Qed.

(** * Consequences of the axioms *)
Section Models.
Context (I : interp) (AX : class_axioms n tb I).
Notation D := (denote I).

Let unique := proj1 AX.
Let trans := proj1 (proj2 AX).
Let refl := proj1 (proj2 (proj2 AX)).
Let ext := proj1 (proj2 (proj2 (proj2 AX))).
Let obj := proj1 (proj2 (proj2 (proj2 (proj2 (proj2 (proj2 AX)))))).
Let excl := proj1 (proj2 (proj2 (proj2 (proj2 (proj2 (proj2 (proj2 AX))))))).
Let excl2 := proj1 (proj2 (proj2 (proj2 (proj2 (proj2 (proj2 (proj2 (proj2 AX)))))))).
Let prop := proj1 (proj2 (proj2 (proj2 (proj2 (proj2 (proj2 (proj2 (proj2 (proj2 AX))))))))).
Let cax := proj1 (proj2 (proj2 (proj2 (proj2 (proj2 (proj2 (proj2 (proj2 (proj2 (proj2 AX)))))))))).
Let aax := proj2 (proj2 (proj2 (proj2 (proj2 (proj2 (proj2 (proj2 (proj2 (proj2 (proj2 AX)))))))))).

Lemma D_app c l : D (TApp c l) = cls_type I c (map D l).
Proof. reflexivity. Qed.
Lemma literal_inst k args t : wf_texpr n tb k t -> length args = k ->
  type_literal I (map D args) t = D (inst args t).
Proof.
  intros W L. induction t as [i|c l IH] using texpr_ind'.
  - inversion W; subst. cbn [type_literal inst].
    rewrite nth_indep with (d' := D (TVar i)) by (rewrite map_length; lia). now rewrite map_nth.
  - inversion W; subst. cbn [type_literal inst]. rewrite D_app. f_equal. rewrite map_map.
    apply map_ext_in. intros x Hx. rewrite Forall_forall in IH, H3. auto.
Qed.

Lemma base_extends t b : wft t -> base t = Some b -> extends_ I (D t) (D b) = true.
Proof.
  intros W E. destruct (wft_head _ W) as (c & l & -> & C & LEN & F). cbn in E.
  destruct (c_super (tb c)) as [(p, m)|] eqn:S; [|discriminate]. injection E as <-. cbn [fst snd].
  rewrite !D_app.
  destruct (cax c p m (map D l) C S) as [X _]. { now rewrite map_length. }
  rewrite map_map.
  replace (map (fun x => D (inst l x)) m) with (map (type_literal I (map D l)) m); auto.
  apply map_ext_in. intros x Hx.
  assert (0 < c) as P. { destruct c; [|lia]. pose proof (wf_object _ _ WF) as [Y _]. unfold object_id in Y. congruence. }
  destruct (wf_super _ _ WF c) as (q & k & E & Q1 & Q2 & Q3); [lia|]. rewrite S in E. injection E as <- <-.
  rewrite Forall_forall in Q3. eapply literal_inst; eauto.
Qed.
Lemma basic_of c l : wft (TApp c l) -> c <> 0 ->
  get_basic I (D (TApp c l)) = uniq_value I (if c_nvars (tb c) =? 0 then UType c else UBasic c).
Proof.
  intros W N. destruct (wft_head _ W) as (c' & l' & [= <- <-] & C & LEN & F).
  destruct (wf_super _ _ WF c) as (q & k & E & _); [lia|].
  destruct (cax c q k (map D l) C E) as [_ X]. { now rewrite map_length. }
  rewrite D_app, X. destruct (c_nvars (tb c) =? 0) eqn:Z; auto.
  apply Nat.eqb_eq in Z. rewrite Z in LEN. destruct l; [reflexivity|discriminate].
Qed.
Lemma declared c : c < n -> declared_uniq n tb (if c_nvars (tb c) =? 0 then UType c else UBasic c).
Proof.
  intros C. destruct (c_nvars (tb c) =? 0) eqn:Z; cbn; [apply Nat.eqb_eq in Z|apply Nat.eqb_neq in Z]; auto.
Qed.
Lemma head_distinct c l d m : wft (TApp c l) -> wft (TApp d m) -> c <> 0 -> d <> 0 -> c <> d ->
  D (TApp c l) <> D (TApp d m).
Proof.
  intros W V C E NE EQ. apply (f_equal (get_basic I)) in EQ. rewrite !basic_of in EQ by auto.
  destruct (wft_head _ W) as (c' & l' & [= <- <-] & CN & _).
  destruct (wft_head _ V) as (d' & m' & [= <- <-] & DN & _).
  apply unique in EQ; try now apply declared.
  destruct (c_nvars (tb c) =? 0), (c_nvars (tb d) =? 0); congruence.
Qed.

Lemma below_subtype t u : wft t -> below tb t u -> subtype I (D t) (D u) = true.
Proof.
  intros W B. induction B as [t|c args p l u S B IH]; [apply refl|].
  assert (base (TApp c args) = Some (TApp p (map (inst args) l))) as E by (cbn; now rewrite S).
  destruct (base_wf _ _ W E) as [W2 _].
  eapply trans. apply andb_true_intro. split; [apply ext; eapply base_extends; eauto|auto].
Qed.

Lemma antisym a b : subtype I a b = true -> subtype I b a = true -> ~ a <> b.
Proof. intros H K N. pose proof (excl2 _ _ H N) as X. rewrite K in X. discriminate. Qed.

(** The value of no class type other than object is the value of object. *)
Lemma object_distinct t : wft t -> head t <> 0 -> D t <> D (TApp 0 []).
Proof.
  intros W H EQ.
  (* the ancestor of t whose base is object *)
  assert (forall x, wft x -> head x <> 0 -> exists s, below tb x s /\ wft s /\ head s <> 0 /\ base s = Some (TApp 0 [])) as TOP.
  { intros x. remember (head x) as h eqn:HH. revert x HH. induction h as [h IH] using lt_wf_ind. intros x -> V N.
    destruct (base x) as [b|] eqn:E.
    - destruct (base_wf _ _ V E) as [V2 L]. destruct (Nat.eq_dec (head b) 0) as [Z|Z].
      + exists x. repeat split; auto. constructor.
        destruct (wft_head _ V2) as (c & l & -> & C & LEN & _). cbn in Z. subst c.
        pose proof (wf_object _ _ WF) as [_ X]. unfold object_id in X. rewrite X in LEN. destruct l; [auto|discriminate].
      + destruct (IH _ L b eq_refl V2 Z) as (s & S1 & S2). exists s. split; auto. eapply below_base; eauto.
    - rewrite (base_none _ V E) in N. cbn in N. congruence. }
  destruct (TOP t W H) as (s & S1 & S2 & S3 & S4).
  assert (subtype I (D (TApp 0 [])) (D s) = true) as OS. { rewrite <- EQ. apply below_subtype; auto. }
  assert (forall x, subtype I x (D s) = true) as ALL.
  { intros x. eapply trans. apply andb_true_intro. split; [apply obj|exact OS]. }
  destruct (wft_head _ S2) as (c & l & -> & C & LEN & F). cbn in S3.
  destruct (Nat.eq_dec c 1) as [->|N1].
  - (* NoneType: the type of object *)
    assert (l = []) as ->. { pose proof (wf_none _ _ WF) as [_ X]. unfold none_id in X. rewrite X in LEN. destruct l; [auto|discriminate]. }
    pose proof (proj1 (proj2 (proj2 (proj2 (proj2 AX))))) as NULL.
    apply (antisym (D (TApp 0 [])) (D (TApp 1 [])) OS (obj _)).
    intros K. apply (unique (UType 0) (UType 1)) in K; [discriminate| |]; cbn.
    + destruct (wf_object _ _ WF). pose proof (wf_two _ _ WF). unfold object_id in *. split; auto. lia.
    + destruct (wf_none _ _ WF). pose proof (wf_two _ _ WF). unfold none_id in *. split; auto.
  - pose proof (base_extends _ _ S2 S4) as E1.
    assert (base (TApp 1 []) = Some (TApp 0 [])) as B1.
    { cbn. destruct (wf_none _ _ WF) as [X _]. unfold none_id in X. now rewrite X. }
    pose proof (base_extends _ _ wft_none B1) as E2.
    assert (D (TApp 1 []) <> D (TApp c l)) as NE. { apply head_distinct; auto. apply wft_none. }
    pose proof (excl (D (TApp 1 [])) (D (TApp c l)) (D (TApp 0 [])) ltac:(rewrite E1, E2; reflexivity) NE) as X.
    apply andb_prop in X as [X _].
    pose proof (prop (D (TApp 1 [])) (D (TApp 1 [])) (D (TApp c l))) as Y.
    rewrite refl, X in Y. specialize (Y eq_refl). rewrite ALL in Y. discriminate.
Qed.

Lemma distinct t u : wft t -> wft u -> t <> u -> D t <> D u.
Proof.
  revert u. induction t as [i|c l IH] using texpr_ind'; intros u W V NE EQ; [inversion W; lia|].
  destruct (wft_head _ W) as (c' & l' & [= <- <-] & CN & LEN & F).
  destruct (wft_head _ V) as (d & m & -> & DN & LEN2 & F2).
  destruct (Nat.eq_dec c d) as [<-|N].
  - (* same class: compare arguments *)
    assert (forall i x, i < c_nvars (tb c) -> nth i (map D l) x = nth i (map D m) x) as ARGS.
    { intros i x Hi.
      transitivity (cls_arg I c (D (TApp c l)) i); [symmetry|].
      - apply aax; auto; try (now rewrite map_length); apply refl.
      - apply aax; auto; try (now rewrite map_length).
        change (subtype I (D (TApp c l)) (D (TApp c m)) = true). rewrite EQ. apply refl. }
    apply NE. f_equal. apply nth_ext with (d := TVar 0) (d' := TVar 0); [congruence|].
    intros i Hi. rewrite Forall_forall in IH, F, F2.
    assert (In (nth i l (TVar 0)) l) as I1 by (apply nth_In; auto).
    assert (In (nth i m (TVar 0)) m) as I2 by (apply nth_In; lia).
    destruct (texpr_dec (nth i l (TVar 0)) (nth i m (TVar 0))) as [|N]; auto.
    exfalso. apply (IH _ I1 _ (F _ I1) (F2 _ I2) N).
    pose proof (ARGS i (D (TVar 0)) ltac:(lia)) as A. now rewrite !map_nth in A.
  - destruct (Nat.eq_dec c 0) as [->|C0]; [|destruct (Nat.eq_dec d 0) as [->|D0]].
    + assert (l = []) as ->. { destruct (wf_object _ _ WF) as [_ X]. unfold object_id in X. rewrite X in LEN. destruct l; [auto|discriminate]. }
      apply (object_distinct (TApp d m)); auto.
    + assert (m = []) as ->. { destruct (wf_object _ _ WF) as [_ X]. unfold object_id in X. rewrite X in LEN2. destruct m; [auto|discriminate]. }
      apply (object_distinct (TApp c l)); auto.
    + apply (head_distinct c l d m); auto.
Qed.

Lemma not_below_not_subtype t u : wft t -> wft u -> ~ below tb t u -> subtype I (D t) (D u) = false.
Proof.
  intros W V N. destruct (subtype I (D t) (D u)) eqn:E; auto. exfalso.
  destruct (below_dec u t V) as [Y|Y].
  - apply (antisym (D t) (D u)); auto. { apply below_subtype; auto. }
    apply distinct; auto. intros ->. apply N. constructor.
  - destruct (branch t u W V N Y) as (s & s' & p & S1 & S2 & S3 & S4 & S5).
    destruct (below_wf _ _ W S1) as [WS _]. destruct (below_wf _ _ V S2) as [VS _].
    pose proof (base_extends _ _ WS S3) as E1. pose proof (base_extends _ _ VS S4) as E2.
    pose proof (excl (D s) (D s') (D p) ltac:(rewrite E1, E2; reflexivity) (distinct _ _ WS VS S5)) as X.
    apply andb_prop in X as [X _].
    pose proof (prop (D t) (D s) (D s')) as Z. rewrite X, (below_subtype _ _ W S1) in Z. specialize (Z eq_refl).
    assert (subtype I (D t) (D s') = true) as K.
    { eapply trans. apply andb_true_intro. split; [exact E|]. apply below_subtype; auto. }
    rewrite K in Z. discriminate.
Qed.
Lemma subtype_iff t u : wft t -> wft u -> (subtype I (D t) (D u) = true <-> below tb t u).
Proof.
  intros W V. split; [|apply below_subtype; auto].
  intros H. destruct (below_dec t u W) as [|N]; auto. rewrite (not_below_not_subtype _ _ W V N) in H. discriminate.
Qed.
End Models.

(** * The union axioms contradict the rest *)
Lemma inconsistent I : ~ type_axioms n tb I.
Proof.
  intros (AX & UB & US & SU).
  destruct AX as (unique & _ & refl & _ & _ & _ & _ & _ & excl2 & _ & cax & _).
  destruct (wf_none _ _ WF) as [S NV]. pose proof (wf_two _ _ WF) as TWO.
  set (A := cls_type I none_id []). set (U := union_type I [A]).
  assert (get_basic I A = A) as BA.
  { destruct (cax none_id object_id [] [] ltac:(unfold none_id; lia) S) as [_ X]; [now rewrite NV|].
    unfold A. rewrite X, NV. reflexivity. }
  assert (A <> union_basic I) as NU.
  { intros K. apply (unique (UType none_id) UUnion) in K; [discriminate| |exact Logic.I]. cbn. unfold none_id. split; auto. }
  assert (subtype I A U = true) as H1.
  { unfold U. rewrite US; [|cbn; lia|now rewrite BA]. cbn. apply refl. }
  assert (subtype I U A = true) as H2.
  { unfold U. rewrite SU by (cbn; lia). cbn. apply refl. }
  assert (A <> U) as NE.
  { intros K. apply NU. rewrite <- BA, K. apply UB. cbn; lia. }
  pose proof (excl2 _ _ H1 NE) as X. rewrite H2 in X. discriminate.
Qed.

End Types.
