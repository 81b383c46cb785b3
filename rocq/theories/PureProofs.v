(** Proofs about the translation of pure functions. *)
From Coq Require Import List Bool Arith ZArith Lia Permutation.
From Verif Require Import ExprSpec MatchSpec MatchModel MatchProofs PureSpec PureModel.
Import ListNotations.

Scheme pstmt_mut := Induction for pstmt Sort Prop
  with pstmts_mut := Induction for pstmts Sort Prop
  with pcases_mut := Induction for pcases Sort Prop.
Combined Scheme pure_ind from pstmt_mut, pstmts_mut, pcases_mut.

Lemma mem_In x xs : mem x xs = true <-> In x xs.
Proof.
  unfold mem. rewrite existsb_exists. split.
  - intros [y [H E]]. apply Nat.eqb_eq in E. now subst.
  - intros H. exists x. split; [exact H|apply Nat.eqb_refl].
Qed.
Lemma mem_false x xs : mem x xs = false <-> ~ In x xs.
Proof. rewrite <- mem_In. destruct (mem x xs); split; congruence. Qed.
Lemma in_minus x xs ys : In x (minus xs ys) <-> In x xs /\ ~ In x ys.
Proof. unfold minus. rewrite filter_In, negb_true_iff, mem_false. tauto. Qed.

Lemma tset_same {A} (r : nat -> A) t v : tset r t v t = v.
Proof. unfold tset. now rewrite Nat.eqb_refl. Qed.
Lemma tset_other {A} (r : nat -> A) t v j : j <> t -> tset r t v j = r j.
Proof. unfold tset. intros H. destruct (Nat.eqb_spec t j); congruence. Qed.
Lemma sset_same s x v : sset s x v x = Some v.
Proof. unfold sset. now rewrite Nat.eqb_refl. Qed.
Lemma sset_other s x v y : y <> x -> sset s x v y = s y.
Proof. unfold sset. intros H. destruct (Nat.eqb_spec x y); congruence. Qed.

(** names after a list of wrappers *)
Fixpoint nafter (N : names) (t : nat) (ws : list wrapper) : names * nat :=
  match ws with
  | [] => (N, t)
  | WAssign x _ _ :: ws' => nafter (set_name N x t) (S t) ws'
  | _ :: ws' => nafter N t ws'
  end.

Lemma nafter_app ws1 ws2 : forall N t,
  nafter N t (ws1 ++ ws2) = nafter (fst (nafter N t ws1)) (snd (nafter N t ws1)) ws2.
Proof. induction ws1 as [|[] ws1 IH]; intros; simpl; auto. Qed.

Lemma build_rest params ws rest : forall N t o,
  build params N t (ws ++ rest) = inr o ->
  exists o', build params (fst (nafter N t ws)) (snd (nafter N t ws)) rest = inr o'.
Proof.
  induction ws as [|w ws IH]; intros N t o H; [eauto|].
  simpl in H. destruct w; simpl;
    match type of H with (match ?b with _ => _ end = _) => destruct b as [e'|o'] eqn:E; [discriminate|] end;
    eapply IH; exact E.
Qed.

Definition wfN (N : names) (t : nat) : Prop :=
  (forall x j, un N x = Some j -> j < t) /\ (forall k j, tn N k = Some j -> j < t).

Lemma wfN_set N t x : wfN N t -> wfN (set_name N x t) (S t).
Proof.
  intros [H1 H2]. destruct x as [y|k]; split; simpl; intros z j.
  - destruct (Nat.eqb_spec y z); [intros E; inversion E; lia|]. intros E. apply H1 in E. lia.
  - intros E. apply H2 in E. lia.
  - intros E. apply H1 in E. lia.
  - destruct (Nat.eqb_spec k z); [intros E; inversion E; lia|]. intros E. apply H2 in E. lia.
Qed.

Lemma wfN_after ws : forall N t, wfN N t -> wfN (fst (nafter N t ws)) (snd (nafter N t ws)).
Proof. induction ws as [|[] ws IH]; intros; simpl; auto. apply IH. now apply wfN_set. Qed.

Lemma nafter_le ws : forall N t, t <= snd (nafter N t ws).
Proof. induction ws as [|[] ws IH]; intros; simpl; auto. specialize (IH (set_name N x t) (S t)). lia. Qed.

Lemma un_set_keeps N x t y : un N y <> None -> un (set_name N x t) y <> None.
Proof. destruct x; simpl; auto. destruct (Nat.eqb x y); congruence. Qed.

Lemma un_after_keeps ws y : forall N t, un N y <> None -> un (fst (nafter N t ws)) y <> None.
Proof. induction ws as [|[] ws IH]; intros; simpl; auto. apply IH. now apply un_set_keeps. Qed.

(** generated variables of the wrappers are numbered from [k] up *)
Definition tmps_from (k : nat) (ws : list wrapper) : Prop :=
  Forall (fun w => match w with WAssign (Tmp j) _ _ => k <= j | _ => True end) ws.

Lemma tmps_from_le k k' ws : k <= k' -> tmps_from k' ws -> tmps_from k ws.
Proof.
  intros Hle. unfold tmps_from. apply Forall_impl. intros [[]| |]; auto. lia.
Qed.

Lemma tn_after_keeps k ws j : forall N t, tmps_from k ws -> j < k -> tn (fst (nafter N t ws)) j = tn N j.
Proof.
  induction ws as [|w ws IH]; intros N t HF Hj; simpl; auto.
  inversion HF as [|? ? Hw HF']; subst. destruct w as [x cs src| |]; auto.
  rewrite IH; auto. destruct x as [y|i]; simpl; auto.
  destruct (Nat.eqb_spec i j); [lia|reflexivity].
Qed.

Lemma tmps_captures k cc subj xs : tmps_from k (map (fun x => WAssign (User x) cc (FromSubject subj)) xs).
Proof. induction xs; constructor; simpl; auto. Qed.

Lemma tr_numbers :
  (forall c k cs ws k', tr_stmt k cs c = Some (ws, k') -> k <= k' /\ tmps_from k ws) /\
  (forall ss k cs ws k', tr_stmts k cs ss = Some (ws, k') -> k <= k' /\ tmps_from k ws) /\
  (forall ks k cs subj ws k', tr_pcases k cs subj ks = Some (ws, k') -> k <= k' /\ tmps_from k ws).
Proof.
  apply pure_ind; simpl; intros.
  - inversion H; subst. split; [lia|]. repeat constructor.
  - inversion H; subst. split; [lia|]. repeat constructor.
  - inversion H; subst. split; [lia|]. repeat constructor.
  - inversion H; subst. split; [lia|]. repeat constructor.
  - destruct (tr_stmts (S k) (cs ++ [(true, k)]) b1) as [[w1 k1]|] eqn:E1; [|discriminate].
    destruct (tr_stmts k1 (cs ++ [(false, k)]) b2) as [[w2 k2]|] eqn:E2; [|discriminate].
    inversion H1; subst. apply H in E1. apply H0 in E2. destruct E1 as [L1 T1], E2 as [L2 T2].
    split; [lia|]. constructor; [lia|]. apply Forall_app.
    split; [apply (tmps_from_le _ (S k))|apply (tmps_from_le _ k1)]; auto; lia.
  - destruct (tr_pcases (S k) cs0 k cs) as [[w k1]|] eqn:E; [|discriminate].
    inversion H0; subst. apply H in E. destruct E as [L T]. split; [lia|].
    constructor; [lia|]. apply (tmps_from_le _ (S k)); auto.
  - inversion H; subst. split; [lia|constructor].
  - destruct (tr_stmt k cs s) as [[w1 k1]|] eqn:E1; [|discriminate].
    destruct (tr_stmts k1 cs ss) as [[w2 k2]|] eqn:E2; [|discriminate].
    inversion H1; subst. apply H in E1. apply H0 in E2. destruct E1 as [L1 T1], E2 as [L2 T2].
    split; [lia|]. apply Forall_app. split; [exact T1|apply (tmps_from_le _ k1); auto].
  - inversion H; subst. split; [lia|constructor].
  - destruct (collect_captures p) as [xs|] eqn:Ec; [|discriminate].
    destruct (tr_stmts (S k) (cs0 ++ [(true, k)]) b) as [[w1 k1]|] eqn:E1; [|discriminate].
    destruct (tr_pcases k1 (cs0 ++ [(false, k)]) subj cs) as [[w2 k2]|] eqn:E2; [|discriminate].
    inversion H1; subst. apply H in E1. apply H0 in E2. destruct E1 as [L1 T1], E2 as [L2 T2].
    split; [lia|]. constructor; [lia|]. apply Forall_app. split; [apply tmps_captures|].
    apply Forall_app. split; [apply (tmps_from_le _ (S k))|apply (tmps_from_le _ k1)]; auto; lia.
Qed.

(** every assigned name has a variable afterwards *)
Lemma un_after_user ws x : forall N t,
  Exists (fun w => match w with WAssign (User y) _ _ => y = x | _ => False end) ws ->
  un (fst (nafter N t ws)) x <> None.
Proof.
  induction ws as [|w ws IH]; intros N t HE; inversion HE as [? ? Hw|? ? HE']; subst.
  - destruct w as [[y|]| |]; try contradiction. subst y. simpl.
    apply un_after_keeps. simpl. rewrite Nat.eqb_refl. discriminate.
  - destruct w; simpl; apply IH; exact HE'.
Qed.

Lemma collect_in p : forall xs, or_free p = true -> collect_captures p = Some xs ->
  forall x, In x (captures p) <-> In x xs.
Proof.
  induction p using pattern_ind'; simpl; intros xs Ho Hc y; try (inversion Hc; subst; simpl; tauto).
  - destruct (collect_captures p); [|discriminate]. inversion Hc; subst. rewrite in_app_iff.
    rewrite (IHp l Ho eq_refl). simpl. tauto.
  - destruct kws; [|discriminate]. inversion Hc. simpl. tauto.
  - inversion Hc; subst. destruct (captures p ++ flat_map captures ps); [simpl; tauto|discriminate].
Qed.

Definition assigns_name (x : nat) (ws : list wrapper) : Prop :=
  Exists (fun w => match w with WAssign (User y) _ _ => y = x | _ => False end) ws.

Lemma assigns_captures x cc subj xs : In x xs ->
  assigns_name x (map (fun x => WAssign (User x) cc (FromSubject subj)) xs).
Proof.
  intros H. apply Exists_exists. exists (WAssign (User x) cc (FromSubject subj)).
  split; [|reflexivity]. apply in_map_iff. now exists x.
Qed.

Lemma tr_assigned C :
  (forall c k cs ws k' x, pats_ok C c -> tr_stmt k cs c = Some (ws, k') -> In x (assigned c) -> assigns_name x ws) /\
  (forall ss k cs ws k' x, pats_oks C ss -> tr_stmts k cs ss = Some (ws, k') -> In x (assigneds ss) -> assigns_name x ws) /\
  (forall ks k cs subj ws k' x, pats_cases C ks -> tr_pcases k cs subj ks = Some (ws, k') -> In x (assigned_cases ks) -> assigns_name x ws).
Proof.
  apply pure_ind; simpl.
  - intros x0 e k cs ws k' x _ H [->|[]]. inversion H; subst. now constructor.
  - intros x0 o e k cs ws k' x _ H [->|[]]. inversion H; subst. now constructor.
  - contradiction.
  - contradiction.
  - intros t b1 H b2 H0 k cs ws k' x [P1 P2] H1 H2.
    destruct (tr_stmts (S k) (cs ++ [(true, k)]) b1) as [[w1 k1]|] eqn:E1; [|discriminate].
    destruct (tr_stmts k1 (cs ++ [(false, k)]) b2) as [[w2 k2]|] eqn:E2; [|discriminate].
    inversion H1; subst. apply Exists_cons_tl. apply Exists_app. apply in_app_iff in H2.
    destruct H2; [left; eapply H; eauto|right; eapply H0; eauto].
  - intros e cs H k cs0 ws k' x P H0 H1. destruct (tr_pcases (S k) cs0 k cs) as [[w k1]|] eqn:E; [|discriminate].
    inversion H0; subst. apply Exists_cons_tl. eapply H; eauto.
  - contradiction.
  - intros s H ss H0 k cs ws k' x [P1 P2] H1 H2.
    destruct (tr_stmt k cs s) as [[w1 k1]|] eqn:E1; [|discriminate].
    destruct (tr_stmts k1 cs ss) as [[w2 k2]|] eqn:E2; [|discriminate].
    inversion H1; subst. apply Exists_app. apply in_app_iff in H2.
    destruct H2; [left; eapply H; eauto|right; eapply H0; eauto].
  - contradiction.
  - intros p g b H cs H0 k cs0 subj ws k' x [[P1 [P2 P3]] [P4 P5]] H1 H2.
    destruct (collect_captures p) as [xs|] eqn:Ec; [|discriminate].
    destruct (tr_stmts (S k) (cs0 ++ [(true, k)]) b) as [[w1 k1]|] eqn:E1; [|discriminate].
    destruct (tr_pcases k1 (cs0 ++ [(false, k)]) subj cs) as [[w2 k2]|] eqn:E2; [|discriminate].
    inversion H1; subst. apply Exists_cons_tl. apply Exists_app.
    apply in_app_iff in H2. destruct H2 as [H2|H2].
    + left. apply assigns_captures. now apply (collect_in p xs P2 Ec).
    + right. apply Exists_app. apply in_app_iff in H2.
      destruct H2; [left; eapply H; eauto|right; eapply H0; eauto].
Qed.

(** * Evaluation of expressions and conditions *)
Section Sim.
Variable W : world.
Variable params : list nat.
Variable args : nat -> val.

Definition related (st : list nat) (s : store) (N : names) (r : nat -> val) (D : nat -> bool) : Prop :=
  forall x, ~ In x st ->
  match un N x with
  | Some t => if mem x params then s x = Some (r t)
              else (D x = true /\ s x = Some (r t)) \/ (D x = false /\ s x = None /\ r t = VNone)
  | None => if mem x params then s x = Some (args x) else D x = false /\ s x = None
  end.

Definition with_D (o : option val) (D : nat -> bool) : option (val * (nat -> bool)) :=
  match o with Some v => Some (v, D) | None => None end.

Lemma expr_ok s N al r D e :
  (forall x, In x (xreads e) -> teval W args r D (tr_name params N al x) = with_D (s x) D) ->
  teval W args r D (tr_expr params N al e) = with_D (py_expr W s e) D.
Proof.
  induction e; intros H; simpl.
  - reflexivity.
  - apply H. now left.
  - rewrite IHe; [|exact H]. destruct (py_expr W s e); simpl; [|reflexivity]. now destruct (op1 W f v).
  - rewrite IHe1; [|intros x Hx; apply H; simpl; apply in_or_app; now left].
    destruct (py_expr W s e1); simpl; [|reflexivity].
    rewrite IHe2; [|intros x Hx; apply H; simpl; apply in_or_app; now right].
    destruct (py_expr W s e2); simpl; [|reflexivity]. now destruct (op2 W f v v0).
  - rewrite IHe1; [|intros x Hx; apply H; simpl; apply in_or_app; now left].
    destruct (py_expr W s e1); simpl; [|reflexivity].
    destruct (truthy v).
    + apply IHe2. intros x Hx; apply H; simpl; rewrite !in_app_iff; tauto.
    + apply IHe3. intros x Hx; apply H; simpl; rewrite !in_app_iff; tauto.
Qed.

Lemma name_ok st s N r D x : related st s N r D -> ~ In x st ->
  teval W args r D (tr_name params N [] x) = with_D (s x) D.
Proof.
  intros HR Hx. specialize (HR x Hx). unfold tr_name. simpl.
  destruct (un N x) as [t|].
  - destruct (mem x params).
    + rewrite HR. reflexivity.
    + cbn [teval]. destruct HR as [[HD HS]|[HD [HS _]]]; rewrite HD, HS; reflexivity.
  - destruct (mem x params).
    + rewrite HR. reflexivity.
    + destruct HR as [HD HS]. cbn [teval]. rewrite HD, HS. reflexivity.
Qed.

Lemma avoids_in e st x : avoids e st = true -> In x (xreads e) -> ~ In x st.
Proof.
  unfold avoids. rewrite forallb_forall. intros H Hx. apply H in Hx.
  apply negb_true_iff in Hx. now apply mem_false.
Qed.

Lemma plain_expr_ok st s N r D e : related st s N r D -> avoids e st = true ->
  teval W args r D (tr_expr params N [] e) = with_D (py_expr W s e) D.
Proof. intros HR HA. apply expr_ok. intros x Hx. eapply name_ok; eauto. eapply avoids_in; eauto. Qed.

Definition holds (N : names) (r : nat -> val) (cs : conds) : bool :=
  forallb (fun c => match tn N (snd c) with Some t => Bool.eqb (fst c) (truthy (r t)) | None => false end) cs.
Definition in_scope (N : names) (cs : conds) : Prop := Forall (fun c => tn N (snd c) <> None) cs.

Lemma conds_ok N r D : forall cs acc b,
  in_scope N cs -> (exists v, teval W args r D acc = Some (v, D) /\ truthy v = b) ->
  exists c v, tr_conds N acc cs = Some c /\ teval W args r D c = Some (v, D) /\ truthy v = b && holds N r cs.
Proof.
  induction cs as [|[pol k] cs IH]; intros acc b Hs Ha; simpl.
  - destruct Ha as [v [Hv Hb]]. exists acc, v. rewrite andb_true_r. auto.
  - inversion Hs as [|? ? Hk Hs']; subst. simpl in Hk. destruct (tn N k) as [t|]; [|congruence].
    destruct Ha as [v [Hv Hb]].
    destruct (IH (TAnd acc (if pol then TToBool (TVar t) else TNot (TToBool (TVar t))))
                 (b && Bool.eqb pol (truthy (r t))) Hs') as [c [u [H1 [H2 H3]]]].
    { cbn [teval]. rewrite Hv. destruct (truthy v) eqn:Ev; subst b.
      - destruct pol; cbn [teval]; eexists; (split; [reflexivity|]); simpl; now destruct (truthy (r t)).
      - eexists; split; reflexivity. }
    exists c, u. rewrite andb_assoc. auto.
Qed.

Definition ev (N : names) (t : nat) (ws : list wrapper) (r : nat -> val) (D : nat -> bool) : option val :=
  match build params N t ws with
  | inr (Some b) => match teval W args r D b with Some (v, _) => Some v | None => None end
  | _ => None
  end.

Definition old_val (N : names) (r : nat -> val) (x : wname) : val :=
  match (match x with User y => un N y | Tmp k => tn N k end) with Some t => r t | None => VNone end.
Definition def_after (x : wname) (D : nat -> bool) : nat -> bool :=
  match x with User y => tset D y true | Tmp _ => D end.

Lemma step_assign N t x cs src ws o r D :
  build params N t (WAssign x cs src :: ws) = inr o -> in_scope N cs ->
  exists v0, tr_src params N x src = Some v0 /\
  ev N t (WAssign x cs src :: ws) r D =
    if holds N r cs
    then match teval W args r D v0 with
         | Some (v, D') => ev (set_name N x t) (S t) ws (tset r t v) (def_after x D')
         | None => None
         end
    else ev (set_name N x t) (S t) ws (tset r t (old_val N r x)) D.
Proof.
  intros HB HS. unfold ev. cbn [build] in *.
  destruct (build params (set_name N x t) (S t) ws) as [e|prev] eqn:EB; [discriminate|].
  unfold tr_wrapper in *.
  destruct (tr_src params N x src) as [v0|]; [|discriminate]. exists v0. split; [reflexivity|].
  destruct prev as [b|]; [|discriminate].
  destruct cs as [|c0 cs0].
  - simpl. destruct x; cbn [teval def_after]; destruct (teval W args r D v0) as [[v D']|]; reflexivity.
  - destruct (conds_ok N r D (c0 :: cs0) (TVal (VBool true)) true HS) as [c [u [H1 [H2 H3]]]].
    { eexists; split; reflexivity. }
    rewrite H1. cbn [teval]. rewrite H2, H3. cbn [andb].
    destruct (holds N r (c0 :: cs0)).
    + destruct x; cbn [teval def_after]; destruct (teval W args r D v0) as [[v D']|]; reflexivity.
    + unfold old_val. destruct x as [y|k]; [destruct (un N y)|destruct (tn N k)]; reflexivity.
Qed.

Lemma step_return N t cs e ws o r D :
  build params N t (WReturn cs e :: ws) = inr o -> in_scope N cs ->
  ev N t (WReturn cs e :: ws) r D =
    if holds N r cs
    then match teval W args r D (tr_expr params N [] e) with Some (v, _) => Some v | None => None end
    else ev N t ws r D.
Proof.
  intros HB HS. unfold ev. cbn [build] in *.
  destruct (build params N t ws) as [er|prev] eqn:EB; [discriminate|].
  unfold tr_wrapper in *. destruct cs as [|c0 cs0].
  - destruct prev; [discriminate|]. reflexivity.
  - destruct (conds_ok N r D (c0 :: cs0) (TVal (VBool true)) true HS) as [c [u [H1 [H2 H3]]]].
    { eexists; split; reflexivity. }
    rewrite H1. cbn [teval]. rewrite H2, H3. cbn [andb].
    destruct (holds N r (c0 :: cs0)); [reflexivity|]. destruct prev; reflexivity.
Qed.

Lemma step_assert N t cs e ws o r D :
  build params N t (WAssert cs e :: ws) = inr o -> in_scope N cs ->
  ev N t (WAssert cs e :: ws) r D =
    if holds N r cs
    then match teval W args r D (tr_expr params N [] e) with
         | Some (v, D') => if truthy v then ev N t ws r D' else None
         | None => None end
    else ev N t ws r D.
Proof.
  intros HB HS. unfold ev. cbn [build] in *.
  destruct (build params N t ws) as [er|prev] eqn:EB; [discriminate|].
  unfold tr_wrapper in *. destruct prev as [b|]; [|discriminate]. destruct cs as [|c0 cs0].
  - cbn [teval holds forallb]. destruct (teval W args r D (tr_expr params N [] e)) as [[v D']|]; [|reflexivity].
    simpl. now destruct (truthy v).
  - destruct (conds_ok N r D (c0 :: cs0) (TVal (VBool true)) true HS) as [c [u [H1 [H2 H3]]]].
    { eexists; split; reflexivity. }
    rewrite H1. cbn [teval]. rewrite H2, H3. cbn [andb].
    destruct (holds N r (c0 :: cs0)); [|reflexivity].
    destruct (teval W args r D (tr_expr params N [] e)) as [[v D']|]; [|reflexivity].
    simpl. now destruct (truthy v).
Qed.

(** * Invariance of the relation *)
Lemma related_weaken st st' s N r D : incl st st' -> related st s N r D -> related st' s N r D.
Proof. intros Hi HR x Hx. apply HR. intros H. apply Hx. now apply Hi. Qed.

Lemma related_store st s s' N r D : (forall x, ~ In x st -> s' x = s x) ->
  related st s N r D -> related st s' N r D.
Proof. intros He HR x Hx. rewrite (He x Hx). now apply HR. Qed.

Lemma related_tmp st s N r D t k v : wfN N t -> related st s N r D ->
  related st s (set_name N (Tmp k) t) (tset r t v) D.
Proof.
  intros [H1 _] HR x Hx. specialize (HR x Hx). simpl.
  destruct (un N x) as [j|] eqn:E; [|exact HR].
  rewrite tset_other; [exact HR|]. apply H1 in E. lia.
Qed.

Lemma related_assign st s N r D t y v : wfN N t -> related st s N r D ->
  related (minus st [y]) (sset s y v) (set_name N (User y) t) (tset r t v) (tset D y true).
Proof.
  intros [H1 _] HR x Hx. simpl. destruct (Nat.eqb_spec y x).
  - subst x. rewrite tset_same, sset_same, tset_same. destruct (mem y params); auto.
  - assert (Hx' : ~ In x st) by (intros H; apply Hx; apply in_minus; split; [exact H|intros [E|[]]; congruence]).
    specialize (HR x Hx'). rewrite sset_other, (tset_other D); auto.
    destruct (un N x) as [j|] eqn:E; [|exact HR].
    rewrite tset_other; [exact HR|]. apply H1 in E. lia.
Qed.

Lemma related_skip st s N r D t x : wfN N t -> related st s N r D ->
  (forall y, x = User y -> mem y params = true -> un N y <> None) ->
  related st s (set_name N x t) (tset r t (old_val N r x)) D.
Proof.
  intros HW HR HP. destruct x as [y|k]; [|now apply related_tmp].
  destruct HW as [H1 _]. intros x Hx. specialize (HR x Hx). simpl. destruct (Nat.eqb_spec y x).
  - subst x. rewrite tset_same. unfold old_val. specialize (HP y eq_refl).
    destruct (un N y) as [j|]; [exact HR|].
    destruct (mem y params); [exfalso; now apply HP|]. right. tauto.
  - destruct (un N x) as [j|] eqn:E; [|exact HR].
    rewrite tset_other; [exact HR|]. apply H1 in E. lia.
Qed.

Lemma holds_keep N t r r' k cs ws : tmps_from k ws -> Forall (fun c => snd c < k) cs -> wfN N t ->
  (forall j, j < t -> r' j = r j) ->
  holds (fst (nafter N t ws)) r' cs = holds N r cs.
Proof.
  intros HT HK [_ H2] Hr. induction cs as [|[b j] cs IH]; [reflexivity|].
  inversion HK as [|? ? Hj HK']; subst. cbn [holds forallb fst snd].
  unfold holds in IH. rewrite IH; auto.
  rewrite (tn_after_keeps k ws j N t HT Hj). cbn [snd] in *.
  destruct (tn N j) as [i|] eqn:E; [|reflexivity]. rewrite Hr; [reflexivity|]. now apply H2 in E.
Qed.

Lemma in_scope_keep N t k cs ws : tmps_from k ws -> Forall (fun c => snd c < k) cs ->
  in_scope N cs -> in_scope (fst (nafter N t ws)) cs.
Proof.
  intros HT HK HS. unfold in_scope in *. rewrite Forall_forall in *. intros c Hc.
  rewrite (tn_after_keeps k ws _ N t HT (HK c Hc)). now apply HS.
Qed.

(** setting the tmp [k] itself *)
Lemma holds_set N t r v k cs : Forall (fun c => snd c < k) cs -> wfN N t ->
  holds (set_name N (Tmp k) t) (tset r t v) cs = holds N r cs.
Proof.
  intros HK HW. apply (holds_keep N t r (tset r t v) k cs [WAssign (Tmp k) [] (FromSubject 0)]); auto.
  - repeat constructor.
  - intros j Hj. apply tset_other. lia.
Qed.

Lemma holds_snoc N r cs b k t : tn N k = Some t ->
  holds N r (cs ++ [(b, k)]) = holds N r cs && Bool.eqb b (truthy (r t)).
Proof. intros E. unfold holds. rewrite forallb_app. simpl. rewrite E, andb_true_r. reflexivity. Qed.

Lemma in_scope_set N t k cs b : Forall (fun c => snd c < k) cs -> in_scope N cs ->
  in_scope (set_name N (Tmp k) t) (cs ++ [(b, k)]).
Proof.
  intros HK HS. unfold in_scope in *. apply Forall_app. split.
  - rewrite Forall_forall in *. intros c Hc. simpl.
    destruct (Nat.eqb_spec k (snd c)); [discriminate|]. now apply HS.
  - repeat constructor. simpl. rewrite Nat.eqb_refl. discriminate.
Qed.

Lemma lt_snoc k cs b : Forall (fun c : bool * nat => snd c < k) cs ->
  Forall (fun c => snd c < S k) (cs ++ [(b, k)]).
Proof.
  intros H. apply Forall_app. split; [|repeat constructor].
  eapply Forall_impl; [|exact H]. simpl. intros; lia.
Qed.
Lemma lt_weaken k k' cs : k <= k' -> Forall (fun c : bool * nat => snd c < k) cs ->
  Forall (fun c => snd c < k') cs.
Proof. intros Hk H. eapply Forall_impl; [|exact H]. simpl. intros; lia. Qed.

(** * The simulation *)
Definition reaches (N : names) (t : nat) (ws rest : list wrapper) (r : nat -> val) (D : nat -> bool)
  (st : list nat) (s : store) : Prop :=
  exists r' D', (forall j, j < t -> r' j = r j) /\
    ev N t (ws ++ rest) r D = ev (fst (nafter N t ws)) (snd (nafter N t ws)) rest r' D' /\
    related st s (fst (nafter N t ws)) r' D'.

Definition sim (N : names) (t : nat) (ws rest : list wrapper) (r : nat -> val) (D : nat -> bool)
  (active : bool) (st : list nat) (s : store) (st' : list nat) (out : outcome) : Prop :=
  if active then
    match out with
    | ORet v => ev N t (ws ++ rest) r D = Some v
    | OErr => ev N t (ws ++ rest) r D = None
    | OFall s' => reaches N t ws rest r D st' s'
    end
  else reaches N t ws rest r D st s.

Lemma reaches_trans N t ws1 ws2 rest r D st1 s1 st s :
  reaches N t ws1 (ws2 ++ rest) r D st1 s1 ->
  (forall r1 D1, (forall j, j < t -> r1 j = r j) ->
     related st1 s1 (fst (nafter N t ws1)) r1 D1 ->
     reaches (fst (nafter N t ws1)) (snd (nafter N t ws1)) ws2 rest r1 D1 st s) ->
  reaches N t (ws1 ++ ws2) rest r D st s.
Proof.
  intros [r1 [D1 [Hr1 [He1 HR1]]]] H2.
  destruct (H2 r1 D1 Hr1 HR1) as [r2 [D2 [Hr2 [He2 HR2]]]].
  exists r2, D2. rewrite nafter_app. split; [|split].
  - intros j Hj. rewrite Hr2; [now apply Hr1|]. pose proof (nafter_le ws1 N t). lia.
  - rewrite <- app_assoc, He1. exact He2.
  - exact HR2.
Qed.

Lemma sim_after N t ws1 ws2 rest r D st1 s1 a st s st' out :
  reaches N t ws1 (ws2 ++ rest) r D st1 s1 ->
  (forall r1 D1, (forall j, j < t -> r1 j = r j) ->
     related st1 s1 (fst (nafter N t ws1)) r1 D1 ->
     sim (fst (nafter N t ws1)) (snd (nafter N t ws1)) ws2 rest r1 D1 a st s st' out) ->
  sim N t (ws1 ++ ws2) rest r D a st s st' out.
Proof.
  intros H1 H2. unfold sim in *. destruct a.
  - destruct out as [v| |s'].
    + destruct H1 as [r1 [D1 [Hr1 [He1 HR1]]]]. rewrite <- app_assoc, He1. now apply H2.
    + destruct H1 as [r1 [D1 [Hr1 [He1 HR1]]]]. rewrite <- app_assoc, He1. now apply H2.
    + eapply reaches_trans; eauto.
  - eapply reaches_trans; eauto.
Qed.

Definition has_var (N : names) (xs : list nat) : Prop :=
  forall x, In x xs -> mem x params = true -> un N x <> None.

Lemma has_var_after N t ws xs : has_var N xs -> has_var (fst (nafter N t ws)) xs.
Proof. intros H x Hx Hp. apply un_after_keeps. now apply H. Qed.

(** captures of a chosen (or skipped) case *)
Definition sset_all (s : store) (xs : list nat) (v : val) : store :=
  fold_left (fun s x => sset s x v) xs s.

Lemma sset_all_in xs v : forall s x, In x xs -> sset_all s xs v x = Some v.
Proof.
  assert (G : forall xs s x, s x = Some v -> sset_all s xs v x = Some v).
  { clear xs. induction xs as [|y ys IH]; intros s x H; [exact H|].
    change (sset_all s (y :: ys) v) with (sset_all (sset s y v) ys v). apply IH.
    destruct (Nat.eq_dec x y); [subst; apply sset_same|rewrite sset_other; auto]. }
  induction xs as [|y ys IH]; intros s x H; [contradiction|].
  change (sset_all s (y :: ys) v) with (sset_all (sset s y v) ys v).
  destruct H as [->|H]; [apply G; apply sset_same|now apply IH].
Qed.
Lemma sset_all_notin xs v : forall s x, ~ In x xs -> sset_all s xs v x = s x.
Proof.
  induction xs as [|y ys IH]; intros s x H; [reflexivity|].
  change (sset_all s (y :: ys) v) with (sset_all (sset s y v) ys v).
  rewrite IH; [|intros G; apply H; now right]. apply sset_other. intros ->. apply H. now left.
Qed.
Lemma sbind_notin bs : forall s x, ~ In x (map fst bs) -> sbind s bs x = s x.
Proof.
  induction bs as [|[y w] bs IH]; intros s x H; [reflexivity|].
  change (sbind s ((y, w) :: bs)) with (sbind (sset s y w) bs).
  rewrite IH; [|intros G; apply H; now right]. apply sset_other. intros ->. apply H. now left.
Qed.
Lemma sbind_const bs v : (forall b, In b bs -> snd b = v) -> forall s x,
  In x (map fst bs) -> sbind s bs x = Some v.
Proof.
  intros Hb.
  assert (G : forall bs s x, (forall b, In b bs -> snd b = v) -> s x = Some v -> sbind s bs x = Some v).
  { clear. induction bs as [|[y w] bs IH]; intros s x Hb H; [exact H|].
    change (sbind s ((y, w) :: bs)) with (sbind (sset s y w) bs). apply IH; [intros; apply Hb; now right|].
    rewrite (Hb (y, w) (or_introl eq_refl) : w = v).
    destruct (Nat.eq_dec x y); [subst; apply sset_same|rewrite sset_other; auto]. }
  induction bs as [|[y w] bs IH]; intros s x H; [contradiction|].
  change (sbind s ((y, w) :: bs)) with (sbind (sset s y w) bs).
  destruct H as [H|H].
  - simpl in H; subst y. apply G; [intros; apply Hb; now right|].
    rewrite (Hb (x, w) (or_introl eq_refl) : w = v). apply sset_same.
  - apply IH; [intros; apply Hb; now right|exact H].
Qed.

Lemma collect_bound C h p : forall xs v bs, or_free p = true -> collect_captures p = Some xs ->
  py_match C h p v = Some bs ->
  (forall b, In b bs -> snd b = v) /\ (forall x, In x (map fst bs) <-> In x xs).
Proof.
  induction p using pattern_ind'; simpl; intros xs v bs Ho Hc Hm.
  - inversion Hc; inversion Hm; subst. simpl. split; [intros b []|tauto].
  - inversion Hc; inversion Hm; subst. simpl. split; [intros b [<-|[]]; reflexivity|tauto].
  - destruct (collect_captures p); [|discriminate]. inversion Hc; subst.
    destruct (py_match C h p v) eqn:E; [|discriminate]. inversion Hm; subst.
    destruct (IHp l v l0 Ho eq_refl E) as [A B]. split.
    + intros b Hb. apply in_app_iff in Hb. destruct Hb as [Hb|[<-|[]]]; auto.
    + intros y. rewrite map_app, in_app_iff, B. simpl. tauto.
  - inversion Hc; subst. destruct v; inversion Hm. simpl. split; [intros b []|tauto].
  - inversion Hc; subst. destruct v as [|b'| | |]; try discriminate. destruct (Bool.eqb b b'); inversion Hm.
    simpl. split; [intros b0 []|tauto].
  - inversion Hc; subst. destruct (eqv C v w); inversion Hm. simpl. split; [intros b []|tauto].
  - destruct kws; [|discriminate]. inversion Hc; subst. destruct (isinst C v c); inversion Hm.
    simpl. split; [intros b []|tauto].
  - inversion Hc; subst. pose proof (match_names C h (POr p ps) v bs Hm) as Hi. simpl in Hi.
    destruct (captures p ++ flat_map captures ps); [|discriminate].
    destruct bs as [|b bs]; [|exfalso; apply (Hi (fst b)); now left]. simpl. split; [intros b []|tauto].
Qed.

Lemma sim_captures cc subj ts : forall xs N t r D s st rest o,
  build params N t (map (fun x => WAssign (User x) cc (FromSubject subj)) xs ++ rest) = inr o ->
  in_scope N cc -> wfN N t -> tn N subj = Some ts -> has_var N xs -> related st s N r D ->
  sim N t (map (fun x => WAssign (User x) cc (FromSubject subj)) xs) rest r D
      (holds N r cc) st s (minus st xs) (OFall (sset_all s xs (r ts))).
Proof.
  induction xs as [|x xs IH]; intros N t r D s st rest o HB HS HW HT HV HR.
  - unfold sim, reaches. cbn [nafter fst snd map app sset_all fold_left].
    destruct (holds N r cc); exists r, D; (split; [auto|]); (split; [reflexivity|]); [|exact HR].
    eapply related_weaken; [|exact HR]. intros y Hy. apply in_minus. simpl. tauto.
  - cbn [map app] in *.
    destruct (step_assign N t (User x) cc (FromSubject subj) _ o r D HB HS) as [v0 [Hv Hev]].
    simpl in Hv. rewrite HT in Hv. inversion Hv; subst v0. clear Hv.
    assert (HB' := build_rest params [WAssign (User x) cc (FromSubject subj)] _ N t o HB).
    destruct HB' as [o' HB']. cbn [nafter fst snd] in HB'.
    set (N1 := set_name N (User x) t) in *.
    assert (HW1 : wfN N1 (S t)) by now apply wfN_set.
    assert (HS1 : in_scope N1 cc) by exact HS.
    assert (HV1 : has_var N1 xs).
    { intros y Hy Hp. apply un_set_keeps. apply HV; auto. now right. }
    assert (Hts : ts < t) by (now apply (proj2 HW) in HT).
    cbn [teval] in Hev.
    change (WAssign (User x) cc (FromSubject subj) :: map (fun x => WAssign (User x) cc (FromSubject subj)) xs)
      with ([WAssign (User x) cc (FromSubject subj)] ++ map (fun x => WAssign (User x) cc (FromSubject subj)) xs).
    destruct (holds N r cc) eqn:Eh.
    + apply (sim_after N t _ _ rest r D (minus st [x]) (sset s x (r ts))).
      * exists (tset r t (r ts)), (tset D x true). split; [|split].
        -- intros j Hj. apply tset_other. lia.
        -- exact Hev.
        -- now apply related_assign.
      * intros r1 D1 Hr1 HR1. cbn [nafter fst snd] in *. fold N1 in HR1 |- *.
        pose proof (IH N1 (S t) r1 D1 (sset s x (r ts)) (minus st [x]) rest o' HB' HS1 HW1 HT HV1 HR1) as H'.
        assert (Hh1 : holds N1 r1 cc = true).
        { rewrite <- Eh. unfold holds, N1. simpl. clear -HW Hr1.
          induction cc as [|[b j] l IHl]; [reflexivity|]. simpl. rewrite IHl.
          destruct (tn N j) eqn:E; [|reflexivity]. rewrite Hr1; [reflexivity|].
          apply (proj2 HW) in E. lia. }
        rewrite Hh1 in H'. unfold sim in *. rewrite (Hr1 ts Hts) in H'.
        change (sset_all s (x :: xs) (r ts)) with (sset_all (sset s x (r ts)) xs (r ts)).
        destruct H' as [r2 [D2 [Hr2 [He2 HR2]]]]. exists r2, D2. split; [exact Hr2|]. split; [exact He2|].
        eapply related_weaken; [|exact HR2]. intros y Hy. apply in_minus in Hy. destruct Hy as [Hy Hn].
        apply in_minus in Hy. apply in_minus. split; [tauto|]. simpl in *. tauto.
    + apply (sim_after N t _ _ rest r D st s).
      * exists (tset r t (old_val N r (User x))), D. split; [|split].
        -- intros j Hj. apply tset_other. lia.
        -- exact Hev.
        -- apply related_skip; auto. intros y Ey Hp. inversion Ey; subst. apply HV; auto. now left.
      * intros r1 D1 Hr1 HR1. cbn [nafter fst snd] in *. fold N1 in HR1 |- *.
        pose proof (IH N1 (S t) r1 D1 s st rest o' HB' HS1 HW1 HT HV1 HR1) as H'.
        assert (Hh1 : holds N1 r1 cc = false).
        { rewrite <- Eh. unfold holds, N1. simpl. clear -HW Hr1.
          induction cc as [|[b j] l IHl]; [reflexivity|]. simpl. rewrite IHl.
          destruct (tn N j) eqn:E; [|reflexivity]. rewrite Hr1; [reflexivity|].
          apply (proj2 HW) in E. lia. }
        rewrite Hh1 in H'. exact H'.
Qed.

Definition compound (c : pstmt) : bool :=
  match c with SIf _ _ _ | SMatch _ _ => true | _ => false end.

(** one plain wrapper in front *)
Lemma cons_reaches N t w rest r D st s r' D' :
  (forall j, j < t -> r' j = r j) ->
  ev N t (w :: rest) r D = ev (fst (nafter N t [w])) (snd (nafter N t [w])) rest r' D' ->
  related st s (fst (nafter N t [w])) r' D' ->
  reaches N t [w] rest r D st s.
Proof. intros. exists r', D'. auto. Qed.

Lemma sim_cons_assign N t x cs src ws rest r D st s st1 s1 a st' out o (HW : wfN N t) :
  (forall y, x = User y -> holds N r cs = false -> mem y params = true -> un N y <> None) ->
  build params N t ((WAssign x cs src :: ws) ++ rest) = inr o -> in_scope N cs ->
  related st s N r D ->
  forall v0, tr_src params N x src = Some v0 ->
  (holds N r cs = true ->
   match teval W args r D v0 with
   | None => a = true /\ out = OErr
   | Some (v, D') => related st1 s1 (set_name N x t) (tset r t v) (def_after x D') /\
       forall r1 D1, (forall j, j < t -> r1 j = r j) -> r1 t = v ->
         related st1 s1 (set_name N x t) r1 D1 ->
         sim (set_name N x t) (S t) ws rest r1 D1 a st s st' out
   end) ->
  (holds N r cs = false ->
   forall r1 D1, (forall j, j < t -> r1 j = r j) ->
     related st s (set_name N x t) r1 D1 ->
     sim (set_name N x t) (S t) ws rest r1 D1 a st s st' out) ->
  sim N t (WAssign x cs src :: ws) rest r D a st s st' out.
Proof.
  intros HP HB HS HR v0 Hv0 HT HF.
  destruct (step_assign N t x cs src (ws ++ rest) o r D HB HS) as [v0' [Hv0' Hev]].
  rewrite Hv0 in Hv0'. inversion Hv0'; subst v0'. clear Hv0'.
  destruct (holds N r cs) eqn:Eh.
  - specialize (HT eq_refl). destruct (teval W args r D v0) as [[v D']|] eqn:Et.
    + destruct HT as [HR1 HT].
      assert (Hs : sim (set_name N x t) (S t) ws rest (tset r t v) (def_after x D') a st s st' out).
      { apply HT; [intros j Hj; apply tset_other; lia|apply tset_same|exact HR1]. }
      unfold sim in *. destruct a.
      * destruct out as [u| |s'].
        -- cbn [app]. now rewrite Hev.
        -- cbn [app]. now rewrite Hev.
        -- destruct Hs as [r2 [D2 [Hr2 [He2 HR2]]]]. exists r2, D2. cbn [nafter app].
           split; [|split; [now rewrite Hev|exact HR2]].
           intros j Hj. rewrite Hr2 by lia. apply tset_other. lia.
      * destruct Hs as [r2 [D2 [Hr2 [He2 HR2]]]]. exists r2, D2. cbn [nafter app].
        split; [|split; [now rewrite Hev|exact HR2]].
        intros j Hj. rewrite Hr2 by lia. apply tset_other. lia.
    + destruct HT as [-> ->]. unfold sim. cbn [app]. exact Hev.
  - specialize (HF eq_refl).
    assert (Hs : sim (set_name N x t) (S t) ws rest (tset r t (old_val N r x)) D a st s st' out).
    { apply HF; [intros j Hj; apply tset_other; lia|]. apply related_skip; auto. }
    unfold sim in *. destruct a.
    + destruct out as [u| |s'].
      * cbn [app]. now rewrite Hev.
      * cbn [app]. now rewrite Hev.
      * destruct Hs as [r2 [D2 [Hr2 [He2 HR2]]]]. exists r2, D2. cbn [nafter app].
        split; [|split; [now rewrite Hev|exact HR2]].
        intros j Hj. rewrite Hr2 by lia. apply tset_other. lia.
    + destruct Hs as [r2 [D2 [Hr2 [He2 HR2]]]]. exists r2, D2. cbn [nafter app].
      split; [|split; [now rewrite Hev|exact HR2]].
      intros j Hj. rewrite Hr2 by lia. apply tset_other. lia.
Qed.

Lemma sim_nil N t rest r D a st s : related st s N r D -> sim N t [] rest r D a st s st (OFall s).
Proof.
  intros HR. unfold sim. destruct a; exists r, D; cbn [nafter fst snd app]; auto.
Qed.

(** the outcome does not matter for skipped code *)
Lemma sim_inactive N t ws rest r D st s st' out st'' out'' :
  sim N t ws rest r D false st s st' out -> sim N t ws rest r D false st s st'' out''.
Proof. auto. Qed.


Hypothesis aug_none : forall o v w, aug_other W o v w = None.

Definition Pst (c : pstmt) : Prop := forall k cs ws k' st s N t r D rest o,
  tr_stmt k cs c = Some (ws, k') -> build params N t (ws ++ rest) = inr o ->
  in_scope N cs -> Forall (fun c => snd c < k) cs -> wfN N t -> related st s N r D ->
  (holds N r cs = true -> no_stale_read st c = true) -> pats_ok (w_classes W) c ->
  ((cs <> [] \/ compound c = true) -> has_var N (assigned c)) ->
  sim N t ws rest r D (holds N r cs) st s (stale_after st c) (py_stmt W s c).

Definition Psts (ss : pstmts) : Prop := forall k cs ws k' st s N t r D rest o,
  tr_stmts k cs ss = Some (ws, k') -> build params N t (ws ++ rest) = inr o ->
  in_scope N cs -> Forall (fun c => snd c < k) cs -> wfN N t -> related st s N r D ->
  (holds N r cs = true -> no_stale_reads st ss = true) -> pats_oks (w_classes W) ss ->
  cs <> [] -> has_var N (assigneds ss) ->
  sim N t ws rest r D (holds N r cs) st s (stale_afters st ss) (py_stmts W s ss).

Definition Pks (ks : pcases) : Prop := forall k prev subj ws k' st s N t r D rest o ts v,
  tr_pcases k prev subj ks = Some (ws, k') -> build params N t (ws ++ rest) = inr o ->
  in_scope N prev -> Forall (fun c => snd c < k) prev -> wfN N t -> related st s N r D ->
  subj < k -> tn N subj = Some ts -> (holds N r prev = true -> r ts = v) ->
  (holds N r prev = true -> no_stale_cases st ks = true) -> pats_cases (w_classes W) ks ->
  has_var N (assigned_cases ks) ->
  sim N t ws rest r D (holds N r prev) st s (stale_cases st ks) (py_pcases W s v ks).

Lemma holds_nil N r cs : holds N r cs = false -> cs <> [].
Proof. intros H ->. discriminate. Qed.

Lemma snoc_not_nil {A} (cs : list A) x : cs ++ [x] <> [].
Proof. destruct cs; discriminate. Qed.

Lemma sim_assign x e : Pst (SAssign x e).
Proof.
  intros k cs ws k' st s N t r D rest o HT HB HS HK HW HR HN HP HV.
  cbn [tr_stmt] in HT. inversion HT; subst ws k'. clear HT.
  eapply (sim_cons_assign N t (User x) cs (FromExpr e) [] rest r D st s (minus st [x])
            (match py_expr W s e with Some v => sset s x v | None => s end)); eauto.
  - intros y Ey Hh Hp. inversion Ey; subst y. apply HV; [left; eapply holds_nil; eauto|now left|exact Hp].
  - reflexivity.
  - intros Hh. rewrite Hh. specialize (HN Hh). cbn [no_stale_read] in HN.
    rewrite (plain_expr_ok st s N r D e HR HN). cbn [py_stmt].
    destruct (py_expr W s e) as [v|]; simpl; [|auto].
    split; [now apply related_assign|]. intros r1 D1 Hr1 _ HR1.
    unfold sim. exists r1, D1. cbn [nafter fst snd app stale_after]. auto.
  - intros Hh r1 D1 Hr1 HR1. rewrite Hh. unfold sim. exists r1, D1. cbn [nafter fst snd app]. auto.
Qed.

Lemma sim_aug x op e : Pst (SAug x op e).
Proof.
  intros k cs ws k' st s N t r D rest o HT HB HS HK HW HR HN HP HV.
  cbn [tr_stmt] in HT. inversion HT; subst ws k'. clear HT.
  destruct (step_assign N t (User x) cs (FromAug op e) rest o r D HB HS) as [v0 [Hv0 _]].
  cbn [tr_src] in Hv0. destruct (un N x) as [j|] eqn:Ej; [|discriminate]. inversion Hv0; subst v0.
  eapply (sim_cons_assign N t (User x) cs (FromAug op e) [] rest r D st s (minus st [x])
            (match py_stmt W s (SAug x op e) with OFall s' => s' | _ => s end)); eauto.
  - intros y Ey Hh Hp. inversion Ey; subst y. congruence.
  - cbn [tr_src]. now rewrite Ej.
  - intros Hh. rewrite Hh. specialize (HN Hh). cbn [no_stale_read] in HN.
    apply andb_true_iff in HN. destruct HN as [Hx HN]. apply negb_true_iff, mem_false in Hx.
    cbn [teval]. rewrite (plain_expr_ok st s N r D e HR HN). cbn [py_stmt].
    pose proof (HR x Hx) as Hrx. rewrite Ej in Hrx.
    assert (Hs : s x = Some (r j) \/ (s x = None /\ r j = VNone)).
    { destruct (mem x params); [now left|]. destruct Hrx as [[_ Hs]|[_ [Hs Hn]]]; auto. }
    destruct (py_expr W s e) as [w|]; cbn [with_D].
    + destruct Hs as [Hs|[Hs Hn]]; rewrite Hs.
      * unfold py_aug. destruct (int_of (r j)) as [a|]; [|rewrite aug_none; auto].
        destruct (int_of w) as [b|]; [|rewrite aug_none; auto].
        split; [now apply related_assign|]. intros r1 D1 Hr1 _ HR1.
        unfold sim. exists r1, D1. cbn [nafter fst snd app stale_after]. auto.
      * rewrite Hn. simpl. auto.
    + destruct (s x); auto.
  - intros Hh r1 D1 Hr1 HR1. rewrite Hh. unfold sim. exists r1, D1. cbn [nafter fst snd app]. auto.
Qed.

Lemma sim_return e : Pst (SReturn e).
Proof.
  intros k cs ws k' st s N t r D rest o HT HB HS HK HW HR HN HP HV.
  cbn [tr_stmt] in HT. inversion HT; subst ws k'. clear HT.
  pose proof (step_return N t cs e rest o r D HB HS) as Hev.
  unfold sim. cbn [app nafter]. destruct (holds N r cs).
  - specialize (HN eq_refl). cbn [no_stale_read] in HN.
    rewrite (plain_expr_ok st s N r D e HR HN) in Hev. cbn [py_stmt].
    destruct (py_expr W s e); exact Hev.
  - exists r, D. auto.
Qed.

Lemma sim_assert e : Pst (SAssert e).
Proof.
  intros k cs ws k' st s N t r D rest o HT HB HS HK HW HR HN HP HV.
  cbn [tr_stmt] in HT. inversion HT; subst ws k'. clear HT.
  pose proof (step_assert N t cs e rest o r D HB HS) as Hev.
  unfold sim. cbn [app nafter]. destruct (holds N r cs).
  - specialize (HN eq_refl). cbn [no_stale_read] in HN.
    rewrite (plain_expr_ok st s N r D e HR HN) in Hev. cbn [py_stmt].
    destruct (py_expr W s e) as [v|]; cbn [with_D] in Hev; [|exact Hev].
    destruct (truthy v); [|exact Hev]. exists r, D. auto.
  - exists r, D. auto.
Qed.

Lemma sim_if c b1 b2 : Psts b1 -> Psts b2 -> Pst (SIf c b1 b2).
Proof.
  intros IH1 IH2 k cs ws k' st s N t r D rest o HT HB HS HK HW HR HN HP HV.
  cbn [tr_stmt] in HT.
  destruct (tr_stmts (S k) (cs ++ [(true, k)]) b1) as [[w1 k1]|] eqn:E1; [|discriminate].
  destruct (tr_stmts k1 (cs ++ [(false, k)]) b2) as [[w2 k2]|] eqn:E2; [|discriminate].
  inversion HT; subst ws k'. clear HT.
  destruct HP as [HP1 HP2].
  assert (HV' : has_var N (assigneds b1 ++ assigneds b2)) by (apply HV; now right). clear HV.
  destruct (proj1 (proj2 tr_numbers) _ _ _ _ _ E1) as [L1 T1].
  destruct (proj1 (proj2 tr_numbers) _ _ _ _ _ E2) as [L2 T2].
  set (N1 := set_name N (Tmp k) t).
  assert (HW1 : wfN N1 (S t)) by now apply wfN_set.
  assert (HV1 : has_var N1 (assigneds b1)).
  { intros x Hx Hp. apply un_set_keeps. apply HV'; auto. apply in_or_app. now left. }
  assert (HV2 : has_var (fst (nafter N1 (S t) w1)) (assigneds b2)).
  { apply has_var_after. intros x Hx Hp. apply un_set_keeps. apply HV'; auto. apply in_or_app. now right. }
  assert (HS1 : in_scope N1 (cs ++ [(true, k)])) by now apply in_scope_set.
  assert (HS2 : in_scope (fst (nafter N1 (S t) w1)) (cs ++ [(false, k)])).
  { apply (in_scope_keep N1 (S t) (S k)); auto; [now apply lt_snoc|now apply in_scope_set]. }
  assert (HB1 := build_rest params [WAssign (Tmp k) cs (FromExpr c)] ((w1 ++ w2) ++ rest) N t o HB).
  destruct HB1 as [o1 HB1]. cbn [nafter fst snd] in HB1. fold N1 in HB1. rewrite <- app_assoc in HB1.
  destruct (build_rest params w1 (w2 ++ rest) N1 (S t) o1 HB1) as [o2 HB2].
  assert (Hk1 : tn N1 k = Some t) by (unfold N1; simpl; now rewrite Nat.eqb_refl).
  (* truth of the branch conditions *)
  assert (Hc1 : forall b r1, (forall j, j < t -> r1 j = r j) ->
            holds N1 r1 (cs ++ [(b, k)]) = holds N r cs && Bool.eqb b (truthy (r1 t))).
  { intros b r1 Hr1. rewrite (holds_snoc N1 r1 cs b k t Hk1). f_equal.
    apply (holds_keep N t r r1 k cs [WAssign (Tmp k) [] (FromSubject 0)]); auto. repeat constructor. }
  assert (Hc2 : forall b r1 r2, (forall j, j < S t -> r2 j = r1 j) ->
            holds (fst (nafter N1 (S t) w1)) r2 (cs ++ [(b, k)]) = holds N1 r1 (cs ++ [(b, k)])).
  { intros b r1 r2 Hr2. apply (holds_keep N1 (S t) r1 r2 (S k)); auto. now apply lt_snoc. }
  (* both branches, skipped or not, from a state where the test is stored *)
  assert (Hskip : forall r1 D1 stx sx, (forall j, j < t -> r1 j = r j) ->
            holds N r cs = false -> related stx sx N1 r1 D1 ->
            reaches N1 (S t) (w1 ++ w2) rest r1 D1 stx sx).
  { intros r1 D1 stx sx Hr1 Hh HR1.
    pose proof (IH1 (S k) _ w1 k1 stx sx N1 (S t) r1 D1 (w2 ++ rest) o1 E1 HB1 HS1 (lt_snoc k cs true HK) HW1 HR1) as A.
    rewrite (Hc1 true r1 Hr1), Hh in A. cbn [andb] in A.
    assert (A' := A ltac:(discriminate) HP1 (snoc_not_nil _ _) HV1). unfold sim in A'.
    eapply reaches_trans; [exact A'|]. intros r2 D2 Hr2 HR2.
    pose proof (IH2 k1 _ w2 k2 stx sx _ _ r2 D2 rest o2 E2 HB2 HS2
                (lt_weaken (S k) k1 _ L1 (lt_snoc k cs false HK)) (wfN_after w1 N1 (S t) HW1) HR2) as B.
    rewrite (Hc2 false r1 r2 Hr2), (Hc1 false r1 Hr1), Hh in B. cbn [andb] in B.
    exact (B ltac:(discriminate) HP2 (snoc_not_nil _ _) HV2). }
  eapply (sim_cons_assign N t (Tmp k) cs (FromExpr c) (w1 ++ w2) rest r D st s st s); eauto.
  - intros y Ey. discriminate.
  - reflexivity.
  - intros Hh. rewrite Hh. specialize (HN Hh). cbn [no_stale_read] in HN.
    apply andb_true_iff in HN. destruct HN as [HN HN2]. apply andb_true_iff in HN. destruct HN as [HN0 HN1].
    rewrite (plain_expr_ok st s N r D c HR HN0). cbn [py_stmt].
    destruct (py_expr W s c) as [v|]; cbn [with_D]; [|auto].
    split; [now apply related_tmp|]. intros r1 D1 Hr1 Hrt HR1. fold N1 in HR1 |- *. cbn [stale_after].
    pose proof (IH1 (S k) _ w1 k1 st s N1 (S t) r1 D1 (w2 ++ rest) o1 E1 HB1 HS1 (lt_snoc k cs true HK) HW1 HR1
                 (fun _ => HN1) HP1 (snoc_not_nil _ _) HV1) as A.
    rewrite (Hc1 true r1 Hr1), Hh, Hrt in A. cbn [andb] in A.
    destruct (truthy v) eqn:Ev; cbn [Bool.eqb] in A.
    + (* then branch runs, else branch is skipped *)
      unfold sim in A. destruct (py_stmts W s b1) as [u| |s1] eqn:Eo.
      * unfold sim. now rewrite <- app_assoc.
      * unfold sim. now rewrite <- app_assoc.
      * unfold sim. eapply reaches_trans; [exact A|]. intros r2 D2 Hr2 HR2.
        pose proof (IH2 k1 _ w2 k2 (stale_afters st b1) s1 _ _ r2 D2 rest o2 E2 HB2 HS2
                (lt_weaken (S k) k1 _ L1 (lt_snoc k cs false HK)) (wfN_after w1 N1 (S t) HW1) HR2) as B.
        rewrite (Hc2 false r1 r2 Hr2), (Hc1 false r1 Hr1), Hh, Hrt, Ev in B. cbn [andb Bool.eqb] in B.
        assert (B' := B ltac:(discriminate) HP2 (snoc_not_nil _ _) HV2).
        destruct B' as [r3 [D3 [Hr3 [He3 HR3]]]]. exists r3, D3. split; [exact Hr3|]. split; [exact He3|].
        eapply related_weaken; [|exact HR3]. apply incl_appl, incl_refl.
    + (* then branch skipped *)
      unfold sim in A. eapply sim_after; [exact A|]. intros r2 D2 Hr2 HR2.
      pose proof (IH2 k1 _ w2 k2 st s _ _ r2 D2 rest o2 E2 HB2 HS2
                (lt_weaken (S k) k1 _ L1 (lt_snoc k cs false HK)) (wfN_after w1 N1 (S t) HW1) HR2
                (fun _ => HN2) HP2 (snoc_not_nil _ _) HV2) as B.
      rewrite (Hc2 false r1 r2 Hr2), (Hc1 false r1 Hr1), Hh, Hrt, Ev in B. cbn [andb Bool.eqb] in B.
      unfold sim in B |- *. destruct (py_stmts W s b2) as [u| |s2]; auto.
      destruct B as [r3 [D3 [Hr3 [He3 HR3]]]]. exists r3, D3. split; [exact Hr3|]. split; [exact He3|].
      eapply related_weaken; [|exact HR3]. apply incl_appr, incl_refl.
  - intros Hh r1 D1 Hr1 HR1. rewrite Hh. unfold sim. now apply Hskip.
Qed.

Lemma sim_match e ks : Pks ks -> Pst (SMatch e ks).
Proof.
  intros IH k cs ws k' st s N t r D rest o HT HB HS HK HW HR HN HP HV.
  cbn [tr_stmt] in HT.
  destruct (tr_pcases (S k) cs k ks) as [[w k1]|] eqn:E1; [|discriminate].
  inversion HT; subst ws k'. clear HT.
  assert (HV' : has_var N (assigned_cases ks)) by (apply HV; now right). clear HV.
  set (N1 := set_name N (Tmp k) t).
  assert (HW1 : wfN N1 (S t)) by now apply wfN_set.
  assert (HV1 : has_var N1 (assigned_cases ks)) by (intros x Hx Hp; apply un_set_keeps; now apply HV').
  assert (HS1 : in_scope N1 cs).
  { pose proof (in_scope_set N t k cs true HK HS) as H. apply Forall_app in H. apply H. }
  assert (HB1 := build_rest params [WAssign (Tmp k) cs (FromExpr e)] (w ++ rest) N t o HB).
  destruct HB1 as [o1 HB1]. cbn [nafter fst snd] in HB1. fold N1 in HB1.
  assert (Hk1 : tn N1 k = Some t) by (unfold N1; simpl; now rewrite Nat.eqb_refl).
  assert (Hc1 : forall r1, (forall j, j < t -> r1 j = r j) -> holds N1 r1 cs = holds N r cs).
  { intros r1 Hr1. apply (holds_keep N t r r1 k cs [WAssign (Tmp k) [] (FromSubject 0)]); auto. repeat constructor. }
  eapply (sim_cons_assign N t (Tmp k) cs (FromExpr e) w rest r D st s st s); eauto.
  - intros y Ey. discriminate.
  - reflexivity.
  - intros Hh. rewrite Hh. specialize (HN Hh). cbn [no_stale_read] in HN.
    apply andb_true_iff in HN. destruct HN as [HN0 HN1].
    rewrite (plain_expr_ok st s N r D e HR HN0). cbn [py_stmt].
    destruct (py_expr W s e) as [v|]; cbn [with_D]; [|auto].
    split; [now apply related_tmp|]. intros r1 D1 Hr1 Hrt HR1. fold N1 in HR1 |- *. cbn [stale_after].
    pose proof (IH (S k) cs k w k1 st s N1 (S t) r1 D1 rest o1 t v E1 HB1 HS1
                  (lt_weaken k (S k) cs (Nat.le_succ_diag_r k) HK) HW1 HR1 (Nat.lt_succ_diag_r k) Hk1
                  (fun _ => Hrt) (fun _ => HN1) HP HV1) as A.
    rewrite (Hc1 r1 Hr1), Hh in A. exact A.
  - intros Hh r1 D1 Hr1 HR1. rewrite Hh. fold N1 in HR1 |- *.
    pose proof (IH (S k) cs k w k1 st s N1 (S t) r1 D1 rest o1 t VNone E1 HB1 HS1
                  (lt_weaken k (S k) cs (Nat.le_succ_diag_r k) HK) HW1 HR1 (Nat.lt_succ_diag_r k) Hk1) as A.
    rewrite (Hc1 r1 Hr1), Hh in A.
    exact (A ltac:(discriminate) ltac:(discriminate) HP HV1).
Qed.

Lemma sim_snil : Psts SNil.
Proof.
  intros k cs ws k' st s N t r D rest o HT HB HS HK HW HR HN HP Hcs HV.
  inversion HT; subst. now apply sim_nil.
Qed.

Lemma sim_scons c ss : Pst c -> Psts ss -> Psts (SCons c ss).
Proof.
  intros IH1 IH2 k cs ws k' st s N t r D rest o HT HB HS HK HW HR HN HP Hcs HV.
  cbn [tr_stmts] in HT.
  destruct (tr_stmt k cs c) as [[w1 k1]|] eqn:E1; [|discriminate].
  destruct (tr_stmts k1 cs ss) as [[w2 k2]|] eqn:E2; [|discriminate].
  inversion HT; subst ws k'. clear HT. destruct HP as [HP1 HP2].
  destruct (proj1 tr_numbers _ _ _ _ _ E1) as [L1 T1].
  rewrite <- app_assoc in HB.
  destruct (build_rest params w1 (w2 ++ rest) N t o HB) as [o2 HB2].
  assert (HV1 : has_var N (assigned c)).
  { intros x Hx. apply HV. cbn [assigneds]. apply in_or_app. now left. }
  assert (HV2 : has_var (fst (nafter N t w1)) (assigneds ss)).
  { apply has_var_after. intros x Hx. apply HV. cbn [assigneds]. apply in_or_app. now right. }
  assert (HN1 : holds N r cs = true -> no_stale_read st c = true).
  { intros H. apply HN in H. cbn [no_stale_reads] in H. now apply andb_true_iff in H. }
  pose proof (IH1 k cs w1 k1 st s N t r D (w2 ++ rest) o E1 HB HS HK HW HR HN1 HP1 (fun _ => HV1)) as A.
  assert (HK2 : Forall (fun c => snd c < k1) cs) by (eapply lt_weaken; eauto).
  assert (HS2 : in_scope (fst (nafter N t w1)) cs) by (eapply in_scope_keep; eauto).
  assert (Hc : forall r1, (forall j, j < t -> r1 j = r j) ->
            holds (fst (nafter N t w1)) r1 cs = holds N r cs).
  { intros r1 Hr1. eapply holds_keep; eauto. }
  destruct (holds N r cs) eqn:Eh.
  - specialize (HN eq_refl). cbn [no_stale_reads] in HN. apply andb_true_iff in HN. destruct HN as [_ HN2].
    cbn [py_stmts stale_afters]. unfold sim in A.
    destruct (py_stmt W s c) as [u| |s1].
    + unfold sim. now rewrite <- app_assoc.
    + unfold sim. now rewrite <- app_assoc.
    + eapply (sim_after N t w1 w2 rest r D _ s1); [exact A|]. intros r1 D1 Hr1 HR1.
      pose proof (IH2 k1 cs w2 k2 (stale_after st c) s1 _ _ r1 D1 rest o2 E2 HB2 HS2 HK2
                    (wfN_after w1 N t HW) HR1 (fun _ => HN2) HP2 Hcs HV2) as B.
      rewrite (Hc r1 Hr1) in B. exact B.
  - unfold sim in A. eapply sim_after; [exact A|]. intros r1 D1 Hr1 HR1.
    pose proof (IH2 k1 cs w2 k2 st s _ _ r1 D1 rest o2 E2 HB2 HS2 HK2 (wfN_after w1 N t HW) HR1) as B.
    rewrite (Hc r1 Hr1) in B.
    exact (B ltac:(discriminate) HP2 Hcs HV2).
Qed.

Lemma sim_knil : Pks KNil.
Proof.
  intros k prev subj ws k' st s N t r D rest o ts v HT HB HS HK HW HR Hsub Htn Hv HN HP HV.
  inversion HT; subst. now apply sim_nil.
Qed.

(** the guard sees the captures *)
Lemma guard_ok p xs bs st s N r D ts v e :
  or_free p = true -> collect_captures p = Some xs ->
  py_match (w_classes W) (w_heap W) p v = Some bs -> r ts = v ->
  related st s N r D -> avoids e (minus st (captures p)) = true ->
  teval W args r D (tr_expr params N (map (fun y => (y, ts)) xs) e) = with_D (py_expr W (sbind s bs) e) D.
Proof.
  intros Ho Hc Hm Hr HR HA. destruct (collect_bound _ _ p xs v bs Ho Hc Hm) as [Hb Hn].
  apply expr_ok. intros x Hx. pose proof (avoids_in e _ x HA Hx) as Hav.
  unfold tr_name.
  destruct (in_dec Nat.eq_dec x xs) as [Hi|Hi].
  - assert (Hf : exists y, find (fun a => Nat.eqb x (fst a)) (map (fun y => (y, ts)) xs) = Some (y, ts)).
    { clear -Hi. induction xs as [|z zs IH]; [contradiction|]. simpl.
      destruct (Nat.eqb_spec x z); [eauto|]. destruct Hi as [->|Hi]; [congruence|]. now apply IH. }
    destruct Hf as [y Hf]. rewrite Hf. cbn [teval]. rewrite Hr.
    rewrite (sbind_const bs v Hb s x); [reflexivity|]. now apply Hn.
  - assert (Hf : find (fun a => Nat.eqb x (fst a)) (map (fun y => (y, ts)) xs) = None).
    { clear -Hi. induction xs as [|z zs IH]; [reflexivity|]. simpl.
      destruct (Nat.eqb_spec x z); [subst; exfalso; apply Hi; now left|]. apply IH. intros H; apply Hi; now right. }
    rewrite Hf. rewrite (sbind_notin bs s x); [|intros H; apply Hi; now apply Hn].
    assert (Hst : ~ In x st).
    { intros H. apply Hav. apply in_minus. split; [exact H|]. intros H2. apply Hi.
      now apply (collect_in p xs Ho Hc). }
    pose proof (name_ok st s N r D x HR Hst) as H. unfold tr_name in H. exact H.
Qed.

Lemma related_caps st s N r D p xs bs v :
  or_free p = true -> collect_captures p = Some xs ->
  py_match (w_classes W) (w_heap W) p v = Some bs ->
  related (minus st xs) (sset_all s xs v) N r D ->
  related (minus st (captures p)) (sbind s bs) N r D.
Proof.
  intros Ho Hc Hm HR. destruct (collect_bound _ _ p xs v bs Ho Hc Hm) as [Hb Hn].
  apply (related_store _ (sset_all s xs v)).
  - intros x _. destruct (in_dec Nat.eq_dec x xs) as [Hi|Hi].
    + rewrite sset_all_in; auto. apply sbind_const; auto. now apply Hn.
    + rewrite sset_all_notin; auto. apply sbind_notin. intros H. apply Hi. now apply Hn.
  - eapply related_weaken; [|exact HR]. intros x Hx. apply in_minus in Hx. apply in_minus.
    rewrite (collect_in p xs Ho Hc). exact Hx.
Qed.

Lemma sim_kcons p g b ks : Psts b -> Pks ks -> Pks (KCons p g b ks).
Proof.
  intros IH1 IH2 k prev subj ws k' st s N t r D rest o ts v HT HB HS HK HW HR Hsub Htn Hv HN HP HV.
  cbn [tr_pcases] in HT.
  destruct (collect_captures p) as [xs|] eqn:Ec; [|discriminate].
  destruct (tr_stmts (S k) (prev ++ [(true, k)]) b) as [[w1 k1]|] eqn:E1; [|discriminate].
  destruct (tr_pcases k1 (prev ++ [(false, k)]) subj ks) as [[w2 k2]|] eqn:E2; [|discriminate].
  inversion HT; subst ws k'. clear HT.
  destruct HP as [[HPd [HPo HPk]] [HP1 HP2]].
  destruct (proj1 (proj2 tr_numbers) _ _ _ _ _ E1) as [L1 T1].
  destruct (proj2 (proj2 tr_numbers) _ _ _ _ _ _ E2) as [L2 T2].
  set (cc := prev ++ [(true, k)]) in *. set (nc := prev ++ [(false, k)]) in *.
  set (wc := map (fun x => WAssign (User x) cc (FromSubject subj)) xs) in *.
  set (N1 := set_name N (Tmp k) t).
  set (N2 := fst (nafter N1 (S t) wc)). set (t2 := snd (nafter N1 (S t) wc)).
  set (N3 := fst (nafter N2 t2 w1)). set (t3 := snd (nafter N2 t2 w1)).
  assert (HW1 : wfN N1 (S t)) by now apply wfN_set.
  assert (HW2 : wfN N2 t2) by now apply wfN_after.
  assert (HW3 : wfN N3 t3) by now apply wfN_after.
  assert (Tc : tmps_from (S k) wc) by apply tmps_captures.
  assert (Ht2 : S t <= t2) by apply nafter_le.
  assert (HKc : Forall (fun c => snd c < S k) cc) by now apply lt_snoc.
  assert (HKn : Forall (fun c => snd c < S k) nc) by now apply lt_snoc.
  assert (HSc1 : in_scope N1 cc) by now apply in_scope_set.
  assert (HSn1 : in_scope N1 nc) by now apply in_scope_set.
  assert (HSc2 : in_scope N2 cc) by (eapply in_scope_keep; eauto).
  assert (HSn2 : in_scope N2 nc) by (eapply in_scope_keep; eauto).
  assert (HSn3 : in_scope N3 nc) by (eapply in_scope_keep; eauto).
  assert (Hts1 : tn N1 subj = Some ts).
  { unfold N1. simpl. destruct (Nat.eqb_spec k subj); [lia|exact Htn]. }
  assert (Hts3 : tn N3 subj = Some ts).
  { unfold N3. rewrite (tn_after_keeps (S k)); auto. unfold N2. rewrite (tn_after_keeps (S k)); auto. }
  assert (Htst : ts < t) by (now apply (proj2 HW) in Htn).
  assert (Hk1 : tn N1 k = Some t) by (unfold N1; simpl; now rewrite Nat.eqb_refl).
  assert (HVc : has_var N1 xs).
  { intros x Hx Hp. apply un_set_keeps. apply HV; auto. cbn [assigned_cases]. apply in_or_app. left.
    now apply (collect_in p xs HPo Ec). }
  assert (HV2 : has_var N2 (assigneds b)).
  { apply has_var_after. intros x Hx Hp. apply un_set_keeps. apply HV; auto. cbn [assigned_cases].
    rewrite !in_app_iff. auto. }
  assert (HV3 : has_var N3 (assigned_cases ks)).
  { apply has_var_after, has_var_after. intros x Hx Hp. apply un_set_keeps. apply HV; auto. cbn [assigned_cases].
    rewrite !in_app_iff. auto. }
  destruct (build_rest params [WAssign (Tmp k) prev (FromPattern subj p g)] ((wc ++ w1 ++ w2) ++ rest) N t o HB)
    as [o1 HB1]. cbn [nafter fst snd] in HB1. fold N1 in HB1. rewrite <- !app_assoc in HB1.
  destruct (build_rest params wc (w1 ++ w2 ++ rest) N1 (S t) o1 HB1) as [o2 HB2].
  fold N2 t2 in HB2.
  destruct (build_rest params w1 (w2 ++ rest) N2 t2 o2 HB2) as [o3 HB3]. fold N3 t3 in HB3.
  assert (Hc1 : forall bb r1, (forall j, j < t -> r1 j = r j) ->
            holds N1 r1 (prev ++ [(bb, k)]) = holds N r prev && Bool.eqb bb (truthy (r1 t))).
  { intros bb r1 Hr1. rewrite (holds_snoc N1 r1 prev bb k t Hk1). f_equal.
    apply (holds_keep N t r r1 k prev [WAssign (Tmp k) [] (FromSubject 0)]); auto. repeat constructor. }
  assert (Hc2 : forall bb r1 r2, (forall j, j < S t -> r2 j = r1 j) ->
            holds N2 r2 (prev ++ [(bb, k)]) = holds N1 r1 (prev ++ [(bb, k)])).
  { intros bb r1 r2 Hr2. apply (holds_keep N1 (S t) r1 r2 (S k)); auto. now apply lt_snoc. }
  assert (Hc3 : forall bb r2 r3, (forall j, j < t2 -> r3 j = r2 j) ->
            holds N3 r3 (prev ++ [(bb, k)]) = holds N2 r2 (prev ++ [(bb, k)])).
  { intros bb r2 r3 Hr3. apply (holds_keep N2 t2 r2 r3 (S k)); auto. now apply lt_snoc. }
  (* captures and body skipped *)
  assert (Hskip : forall r1 D1 stx sx, (forall j, j < t -> r1 j = r j) ->
            holds N1 r1 cc = false -> related stx sx N1 r1 D1 ->
            reaches N1 (S t) (wc ++ w1) (w2 ++ rest) r1 D1 stx sx).
  { intros r1 D1 stx sx Hr1 Hh HR1.
    pose proof (sim_captures cc subj ts xs N1 (S t) r1 D1 sx stx (w1 ++ w2 ++ rest) o1 HB1 HSc1 HW1 Hts1 HVc HR1) as A.
    rewrite Hh in A. unfold sim in A. fold wc in A.
    eapply reaches_trans; [exact A|]. intros r2 D2 Hr2 HR2.
    pose proof (IH1 (S k) cc w1 k1 stx sx N2 t2 r2 D2 (w2 ++ rest) o2 E1 HB2 HSc2 HKc HW2 HR2) as B.
    unfold cc at 1 3 in B. rewrite (Hc2 true r1 r2 Hr2) in B. fold cc in B. rewrite Hh in B.
    exact (B ltac:(discriminate) HP1 (snoc_not_nil _ _) HV2). }
  (* the remaining cases *)
  assert (Hrest : forall r1 D1 stx sx vx, (forall j, j < t -> r1 j = r j) ->
            holds N1 r1 cc = false ->
            (holds N1 r1 nc = true -> r ts = vx) ->
            (holds N1 r1 nc = true -> no_stale_cases stx ks = true) ->
            related stx sx N1 r1 D1 ->
            sim N1 (S t) (wc ++ w1 ++ w2) rest r1 D1 (holds N1 r1 nc) stx sx (stale_cases stx ks) (py_pcases W sx vx ks)).
  { intros r1 D1 stx sx vx Hr1 Hh Hvx HNx HR1. rewrite app_assoc.
    eapply sim_after; [apply (Hskip r1 D1 stx sx Hr1 Hh HR1)|].
    intros r3 D3 Hr3. rewrite nafter_app. fold N2 t2. fold N3 t3. intros HR3.
    assert (Hn3 : holds N3 r3 nc = holds N1 r1 nc).
    { assert (E : N3 = fst (nafter N1 (S t) (wc ++ w1))) by (unfold N3, N2, t2; now rewrite nafter_app).
      rewrite E. apply (holds_keep N1 (S t) r1 r3 (S k)); auto. apply Forall_app; auto. }
    pose proof (IH2 k1 nc subj w2 k2 stx sx N3 t3 r3 D3 rest o3 ts vx E2 HB3 HSn3
                  (lt_weaken (S k) k1 nc L1 HKn) HW3 HR3) as B.
    rewrite Hn3 in B. apply B; auto; [lia|].
    intros Hh'. rewrite Hr3 by lia. rewrite Hr1 by lia. auto. }
  (* value of the case condition *)
  eapply (sim_cons_assign N t (Tmp k) prev (FromPattern subj p g) (wc ++ w1 ++ w2) rest r D st s st s); eauto.
  - intros y Ey. discriminate.
  - cbn [tr_src]. rewrite Htn, Ec.
    instantiate (1 := match g with
                      | None => TPattern ts p
                      | Some e => TAnd (TPattern ts p) (TToBool (tr_expr params N (map (fun y => (y, ts)) xs) e))
                      end). now destruct g.
  - intros Hh. rewrite Hh. specialize (HN Hh). specialize (Hv Hh). cbn [no_stale_cases] in HN.
    apply andb_true_iff in HN. destruct HN as [HN HN2]. apply andb_true_iff in HN. destruct HN as [HN0 HN1].
    assert (Hpat : teval W args r D (TPattern ts p)
                   = Some (VBool (is_some (py_match (w_classes W) (w_heap W) p v)), D)).
    { cbn [teval]. rewrite Hv.
      now rewrite (cond_ok (w_classes W) (w_heap W) v (fun _ => VNone) p HPk Subj v eq_refl). }
    (* the case is not taken *)
    assert (Hnot : forall r1 D1 sx, (forall j, j < t -> r1 j = r j) -> truthy (r1 t) = false ->
              related st s N1 r1 D1 ->
              (forall x, ~ In x (match g with None => st | Some _ => st ++ captures p end) -> sx x = s x) ->
              sim N1 (S t) (wc ++ w1 ++ w2) rest r1 D1 true st s
                  (stale_cases st (KCons p g b ks)) (py_pcases W sx v ks)).
    { intros r1 D1 sx Hr1 Hu HR1 Hsx.
      set (stx := match g with None => st | Some _ => st ++ captures p end) in *.
      assert (HRx : related stx sx N1 r1 D1).
      { apply (related_store stx s); [exact Hsx|]. eapply related_weaken; [|exact HR1].
        unfold stx. destruct g; [apply incl_appl|]; apply incl_refl. }
      pose proof (Hrest r1 D1 stx sx v Hr1) as R.
      unfold cc, nc in R. rewrite !(Hc1 _ r1 Hr1), Hh, Hu in R. cbn [andb Bool.eqb] in R.
      specialize (R eq_refl (fun _ => Hv) (fun _ => HN2) HRx). fold cc in R.
      unfold sim in *. destruct (py_pcases W sx v ks) as [u'| |s']; [exact R|exact R|].
      destruct R as [r3 [D3 [Hr3 [He3 HR3]]]]. exists r3, D3. split; [exact Hr3|]. split; [exact He3|].
      eapply related_weaken; [|exact HR3]. cbn [stale_cases]. fold stx. apply incl_appr, incl_refl. }
    cbn [py_pcases].
    destruct (py_match (w_classes W) (w_heap W) p v) as [bs|] eqn:Em; cbn [is_some] in Hpat.
    + (* the case is taken *)
      assert (Htake : forall r1 D1, (forall j, j < t -> r1 j = r j) -> truthy (r1 t) = true ->
              related st s N1 r1 D1 ->
              sim N1 (S t) (wc ++ w1 ++ w2) rest r1 D1 true st s
                  (stale_cases st (KCons p g b ks)) (py_stmts W (sbind s bs) b)).
      { intros r1 D1 Hr1 Hu HR1.
        assert (Hcc : holds N1 r1 cc = true) by (unfold cc; rewrite (Hc1 true r1 Hr1), Hh, Hu; reflexivity).
        pose proof (sim_captures cc subj ts xs N1 (S t) r1 D1 s st (w1 ++ w2 ++ rest) o1 HB1 HSc1 HW1 Hts1 HVc HR1) as A.
        rewrite Hcc in A. unfold sim in A. fold wc in A.
        eapply (sim_after N1 (S t) wc (w1 ++ w2) rest r1 D1); [rewrite <- app_assoc; exact A|].
        intros r2 D2 Hr2 HR2. fold N2 t2 in HR2 |- *.
        assert (Hrv : r1 ts = v) by (rewrite Hr1 by lia; exact Hv). rewrite Hrv in HR2.
        pose proof (related_caps st s N2 r2 D2 p xs bs v HPo Ec Em HR2) as HR2'.
        pose proof (IH1 (S k) cc w1 k1 (minus st (captures p)) (sbind s bs) N2 t2 r2 D2 (w2 ++ rest) o2
                      E1 HB2 HSc2 HKc HW2 HR2' (fun _ => HN1) HP1 (snoc_not_nil _ _) HV2) as B.
        assert (Hcc2 : holds N2 r2 cc = true) by (unfold cc; rewrite (Hc2 true r1 r2 Hr2); exact Hcc).
        rewrite Hcc2 in B. unfold sim in B |- *.
        destruct (py_stmts W (sbind s bs) b) as [u'| |s'].
        - now rewrite <- app_assoc.
        - now rewrite <- app_assoc.
        - eapply reaches_trans; [exact B|]. intros r3 D3 Hr3 HR3. fold N3 t3 in HR3 |- *.
          assert (Hnc : holds N3 r3 nc = false).
          { unfold nc. rewrite (Hc3 false r2 r3 Hr3), (Hc2 false r1 r2 Hr2), (Hc1 false r1 Hr1), Hh, Hu. reflexivity. }
          pose proof (IH2 k1 nc subj w2 k2 (stale_afters (minus st (captures p)) b) s' N3 t3 r3 D3 rest o3 ts v E2 HB3 HSn3
                  (lt_weaken (S k) k1 nc L1 HKn) HW3 HR3) as C.
          rewrite Hnc in C.
          assert (C' := C ltac:(lia) Hts3 ltac:(discriminate) ltac:(discriminate) HP2 HV3).
          destruct C' as [r4 [D4 [Hr4 [He4 HR4]]]]. exists r4, D4. split; [exact Hr4|]. split; [exact He4|].
          eapply related_weaken; [|exact HR4]. cbn [stale_cases]. apply incl_appl, incl_refl. }
      destruct g as [e|].
      * cbn [teval] in Hpat |- *. rewrite Hpat. cbn [truthy].
        rewrite (guard_ok p xs bs st s N r D ts v e HPo Ec Em Hv HR HN0).
        destruct (py_expr W (sbind s bs) e) as [u|]; cbn [with_D]; [|auto].
        split; [now apply related_tmp|]. intros r1 D1 Hr1 Hrt HR1. fold N1 in HR1 |- *.
        destruct (truthy u) eqn:Eu.
        -- apply Htake; auto. now rewrite Hrt.
        -- apply Hnot; auto; [now rewrite Hrt|]. intros x Hx.
           destruct (collect_bound _ _ p xs v bs HPo Ec Em) as [_ Hn].
           apply sbind_notin. intros H. apply Hx. apply in_or_app. right.
           apply (collect_in p xs HPo Ec). now apply Hn.
      * rewrite Hpat. split; [now apply related_tmp|]. intros r1 D1 Hr1 Hrt HR1. fold N1 in HR1 |- *.
        apply Htake; auto. now rewrite Hrt.
    + assert (Hf : teval W args r D (match g with
                      | None => TPattern ts p
                      | Some e => TAnd (TPattern ts p) (TToBool (tr_expr params N (map (fun y => (y, ts)) xs) e))
                      end) = Some (VBool false, D)).
      { destruct g; [|exact Hpat]. cbn [teval] in *. now rewrite Hpat. }
      rewrite Hf. split; [now apply related_tmp|]. intros r1 D1 Hr1 Hrt HR1. fold N1 in HR1 |- *.
      apply Hnot; auto. now rewrite Hrt.
  - intros Hh r1 D1 Hr1 HR1. rewrite Hh. fold N1 in HR1 |- *.
    assert (Hcc : holds N1 r1 cc = false) by (unfold cc; rewrite (Hc1 true r1 Hr1), Hh; reflexivity).
    assert (Hnc : holds N1 r1 nc = false) by (unfold nc; rewrite (Hc1 false r1 Hr1), Hh; reflexivity).
    pose proof (Hrest r1 D1 st s v Hr1 Hcc) as R. rewrite Hnc in R.
    exact (R ltac:(discriminate) ltac:(discriminate) HR1).
Qed.

Lemma sim_all : (forall c, Pst c) /\ (forall ss, Psts ss) /\ (forall ks, Pks ks).
Proof.
  apply pure_ind.
  - exact sim_assign.
  - exact sim_aug.
  - exact sim_return.
  - exact sim_assert.
  - intros. now apply sim_if.
  - intros. now apply sim_match.
  - exact sim_snil.
  - intros. now apply sim_scons.
  - exact sim_knil.
  - intros. now apply sim_kcons.
Qed.

(** top level: no surrounding condition *)
Lemma params_kept_in seen xs : params_kept params seen xs = true ->
  forall x, In x xs -> mem x params = true -> In x seen.
Proof.
  unfold params_kept. rewrite forallb_forall. intros H x Hx Hp. apply H in Hx.
  rewrite Hp in Hx. simpl in Hx. now apply mem_In.
Qed.

Lemma sim_top ss : forall k ws k' st s N t r D rest o seen,
  tr_stmts k [] ss = Some (ws, k') -> build params N t (ws ++ rest) = inr o ->
  wfN N t -> related st s N r D ->
  no_stale_reads st ss = true -> pats_oks (w_classes W) ss ->
  params_ok params seen ss = true -> (forall x, In x seen -> un N x <> None) ->
  sim N t ws rest r D true st s (stale_afters st ss) (py_stmts W s ss).
Proof.
  induction ss as [|c ss IH]; intros k ws k' st s N t r D rest o seen HT HB HW HR HN HP HPO HSeen.
  - inversion HT; subst. now apply sim_nil.
  - cbn [tr_stmts] in HT.
    destruct (tr_stmt k [] c) as [[w1 k1]|] eqn:E1; [|discriminate].
    destruct (tr_stmts k1 [] ss) as [[w2 k2]|] eqn:E2; [|discriminate].
    inversion HT; subst ws k'. clear HT. destruct HP as [HP1 HP2].
    rewrite <- app_assoc in HB.
    destruct (build_rest params w1 (w2 ++ rest) N t o HB) as [o2 HB2].
    cbn [no_stale_reads] in HN. apply andb_true_iff in HN. destruct HN as [HN1 HN2].
    cbn [params_ok] in HPO. apply andb_true_iff in HPO. destruct HPO as [HPO1 HPO2].
    assert (HV : ([] : conds) <> [] \/ compound c = true -> has_var N (assigned c)).
    { intros [H|H]; [congruence|]. intros x Hx Hp. apply HSeen.
      destruct c; try discriminate; eapply params_kept_in; eauto. }
    pose proof (proj1 sim_all c k [] w1 k1 st s N t r D (w2 ++ rest) o E1 HB ltac:(constructor) ltac:(constructor)
                 HW HR (fun _ => HN1) HP1 HV) as A.
    cbn [holds forallb] in A. cbn [py_stmts stale_afters]. unfold sim in A.
    destruct (py_stmt W s c) as [u| |s1].
    + unfold sim. now rewrite <- app_assoc.
    + unfold sim. now rewrite <- app_assoc.
    + eapply (sim_after N t w1 w2 rest r D _ s1); [exact A|]. intros r1 D1 Hr1 HR1.
      apply (IH k1 w2 k2 (stale_after st c) s1 _ _ r1 D1 rest o2 (seen ++ assigned c)); auto.
      * now apply wfN_after.
      * intros x Hx. apply in_app_iff in Hx. destruct Hx as [Hx|Hx].
        -- apply un_after_keeps. now apply HSeen.
        -- apply un_after_user. eapply (proj1 (tr_assigned (w_classes W))); eauto.
Qed.
End Sim.

Lemma wfN_none t : wfN no_names t.
Proof. split; discriminate. Qed.

Lemma body_ok W params args body b :
  (forall o v w, aug_other W o v w = None) ->
  no_stale_reads [] body = true -> pats_oks (w_classes W) body -> params_ok params [] body = true ->
  tr_body params body = Some (inr (Some b)) ->
  viper_call W args b = py_call W params args body.
Proof.
  intros HA HN HP HO HT. unfold tr_body in HT.
  destruct (tr_stmts 0 [] body) as [[ws k']|] eqn:E; [|discriminate]. inversion HT as [HB]. clear HT.
  rewrite <- (app_nil_r ws) in HB.
  assert (HR : related params args [] (entry params args) no_names (fun _ => VNone) (fun _ => false)).
  { intros x _. simpl. unfold entry. change (existsb (Nat.eqb x) params) with (mem x params).
    destruct (mem x params); auto. }
  pose proof (sim_top W params args HA body 0 ws k' [] (entry params args) no_names 0 (fun _ => VNone) (fun _ => false)
                [] (Some b) [] E HB (wfN_none 0) HR HN HP HO (fun x H => match H with end)) as S.
  assert (Hev : ev W params args no_names 0 (ws ++ []) (fun _ => VNone) (fun _ => false) = viper_call W args b).
  { unfold ev. rewrite HB. reflexivity. }
  unfold py_call. unfold sim in S. destruct (py_stmts W (entry params args) body) as [v| |s'].
  - now rewrite <- Hev.
  - now rewrite <- Hev.
  - destruct S as [r' [D' [_ [He _]]]]. rewrite <- Hev, He. reflexivity.
Qed.

(** a Python run that does not need [aug_other] is the same for every choice of it *)
Definition no_aug_other (W : world) : world :=
  {| op1 := op1 W; op2 := op2 W; w_classes := w_classes W; w_heap := w_heap W;
     aug_other := fun _ _ _ => None |}.

Lemma expr_no_aug W s e : py_expr (no_aug_other W) s e = py_expr W s e.
Proof. induction e; simpl; rewrite ?IHe, ?IHe1, ?IHe2, ?IHe3; reflexivity. Qed.

Lemma run_no_aug W :
  (forall c s, py_stmt (no_aug_other W) s c <> OErr -> py_stmt (no_aug_other W) s c = py_stmt W s c) /\
  (forall ss s, py_stmts (no_aug_other W) s ss <> OErr -> py_stmts (no_aug_other W) s ss = py_stmts W s ss) /\
  (forall ks s v, py_pcases (no_aug_other W) s v ks <> OErr -> py_pcases (no_aug_other W) s v ks = py_pcases W s v ks).
Proof.
  apply pure_ind.
  - intros x e s _. simpl. now rewrite expr_no_aug.
  - intros x o e s. simpl. rewrite expr_no_aug. destruct (s x) as [v|]; [|auto].
    destruct (py_expr W s e) as [w|]; [|auto]. unfold py_aug.
    destruct (int_of v); [destruct (int_of w)|]; simpl; congruence.
  - intros e s _. simpl. now rewrite expr_no_aug.
  - intros e s _. simpl. now rewrite expr_no_aug.
  - intros t b1 H1 b2 H2 s. simpl. rewrite expr_no_aug. destruct (py_expr W s t) as [v|]; [|auto].
    destruct (truthy v); auto.
  - intros e ks H s. simpl. rewrite expr_no_aug. destruct (py_expr W s e); auto.
  - reflexivity.
  - intros c H1 ss H2 s. simpl. intros Hn.
    assert (E : py_stmt (no_aug_other W) s c = py_stmt W s c) by (apply H1; intros E; rewrite E in Hn; congruence).
    rewrite <- E in *. destruct (py_stmt (no_aug_other W) s c); auto.
  - reflexivity.
  - intros p g b H1 ks H2 s v. simpl.
    destruct (py_match (w_classes W) (w_heap W) p v) as [bs|]; [|apply H2].
    destruct g as [e|]; [|apply H1]. rewrite expr_no_aug.
    destruct (py_expr W (sbind s bs) e) as [u|]; [|auto]. destruct (truthy u); auto.
Qed.

Lemma teval_no_aug W args e : forall r D, teval (no_aug_other W) args r D e = teval W args r D e.
Proof.
  induction e; intros r D; simpl; rewrite ?IHe, ?IHe1; try reflexivity;
  try (destruct (teval W args r D e1) as [[v1 D1]|]; [|reflexivity]; rewrite ?IHe2, ?IHe3; reflexivity).
Qed.

Lemma build_none params ws : forall N t, build params N t ws = inr None -> ws = [].
Proof.
  destruct ws as [|w ws]; intros N t H; [reflexivity|]. cbn [build] in H.
  destruct w; match type of H with (match ?b with _ => _ end = _) => destruct b; [discriminate|] end;
  match type of H with (match ?b with _ => _ end = _) => destruct b; discriminate end.
Qed.

Lemma tr_nonempty :
  (forall c k cs ws k', tr_stmt k cs c = Some (ws, k') -> ws <> []) /\
  (forall ss k cs ws k', tr_stmts k cs ss = Some (ws, k') -> ws = [] -> ss = SNil) /\
  (forall ks : pcases, True).
Proof.
  apply pure_ind; simpl; auto.
  - intros x e k cs ws k' H. inversion H. discriminate.
  - intros x o e k cs ws k' H. inversion H. discriminate.
  - intros e k cs ws k' H. inversion H. discriminate.
  - intros e k cs ws k' H. inversion H. discriminate.
  - intros t b1 _ b2 _ k cs ws k' H.
    destruct (tr_stmts (S k) (cs ++ [(true, k)]) b1) as [[w1 k1]|]; [|discriminate].
    destruct (tr_stmts k1 (cs ++ [(false, k)]) b2) as [[w2 k2]|]; [|discriminate].
    inversion H. discriminate.
  - intros e ks _ k cs ws k' H. destruct (tr_pcases (S k) cs k ks) as [[w k1]|]; [|discriminate].
    inversion H. discriminate.
  - intros c Hc ss Hss k cs ws k' H He.
    destruct (tr_stmt k cs c) as [[w1 k1]|] eqn:E1; [|discriminate].
    destruct (tr_stmts k1 cs ss) as [[w2 k2]|] eqn:E2; [|discriminate].
    inversion H; subst. exfalso. apply app_eq_nil in H1. destruct H1 as [H1 _].
    now apply (Hc _ _ _ _ E1).
Qed.

Lemma body_generated params body : tr_body params body = Some (inr None) -> body = SNil.
Proof.
  unfold tr_body. destruct (tr_stmts 0 [] body) as [[ws k]|] eqn:E; [|discriminate].
  intros H. inversion H as [H']. apply build_none in H'. eapply (proj1 (proj2 tr_nonempty)); eauto.
Qed.

Lemma after_return_rejected params e ss b :
  tr_body params (SCons (SReturn e) ss) = Some (inr (Some b)) -> ss = SNil.
Proof.
  unfold tr_body. cbn [tr_stmts tr_stmt].
  destruct (tr_stmts 0 [] ss) as [[ws k]|] eqn:E; [|discriminate].
  intros H. inversion H as [H']. cbn [app build] in H'.
  destruct (build params no_names 0 ws) as [er|prev] eqn:EB; [discriminate|].
  cbn [tr_wrapper] in H'. destruct prev; [discriminate|].
  apply build_none in EB. eapply (proj1 (proj2 tr_nonempty)); eauto.
Qed.

Lemma c20_pure_sound : forall W params args body b v,
  no_stale_reads [] body = true -> pats_oks (w_classes W) body -> params_ok params [] body = true ->
  tr_body params body = Some (inr (Some b)) ->
  viper_call W args b = Some v ->
  py_call W params args body = Some v.
Proof.
  intros W params args body b v HN HP HO HT HV.
  pose proof (body_ok (no_aug_other W) params args body b (fun _ _ _ => eq_refl) HN HP HO HT) as H.
  assert (E : viper_call (no_aug_other W) args b = viper_call W args b)
    by (unfold viper_call; now rewrite teval_no_aug).
  rewrite E, HV in H. unfold py_call in *.
  pose proof (proj1 (proj2 (run_no_aug W)) body (entry params args)) as R.
  destruct (py_stmts (no_aug_other W) (entry params args) body) as [u| |s'] eqn:Eo; try discriminate.
  rewrite <- R; [|discriminate]. now rewrite H.
Qed.
