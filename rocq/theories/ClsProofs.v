From Coq Require Import Bool Arith List Permutation Lia ZifyBool.
From Verif Require Import ClsModel ClsSpec.
Import ListNotations.

Lemma mem_In x l : mem x l = true <-> In x l.
Proof.
  unfold mem. rewrite existsb_exists. split.
  - intros (y & Hy & E). apply Nat.eqb_eq in E. now subst.
  - intros H. exists x. split; auto. apply Nat.eqb_refl.
Qed.
Lemma mem_not x l : mem x l = false <-> ~ In x l.
Proof. rewrite <- mem_In. destruct (mem x l); intuition congruence. Qed.

Section Table.
Context (n : nat) (tb : table) (WF : wf_table n tb).

Lemma super_lt c p : c < n -> superclass tb c = Some p -> p < c.
Proof.
  intros L H. destruct (Nat.eq_dec c 0) as [->|Z].
  - unfold superclass in H. pose proof (wf_object _ _ WF) as [E _]. unfold object_id in E. rewrite E in H. discriminate.
  - destruct (wf_super _ _ WF c) as (q & l & E & Q & _); [lia|].
    unfold superclass in H. rewrite E in H. cbn in H. congruence.
Qed.
Lemma super_none c : c < n -> superclass tb c = None -> c = 0.
Proof.
  intros L H. destruct (Nat.eq_dec c 0) as [->|Z]; auto.
  destruct (wf_super _ _ WF c) as (q & l & E & Q & _); [lia|].
  unfold superclass in H. rewrite E in H. discriminate.
Qed.
Lemma super_zero : superclass tb 0 = None.
Proof. unfold superclass. pose proof (wf_object _ _ WF) as [E _]. unfold object_id in E. now rewrite E. Qed.

Lemma inherits_le c d : c < n -> inherits tb c d -> d <= c.
Proof.
  intros L H. induction H; [lia|]. pose proof (super_lt _ _ L H). specialize (IHinherits ltac:(lia)). lia.
Qed.
Lemma inherits_trans a b c : inherits tb a b -> inherits tb b c -> inherits tb a c.
Proof. induction 1; auto. intros. eapply inh_step; eauto. Qed.
Lemma inherits_antisym a b : a < n -> b < n -> inherits tb a b -> inherits tb b a -> a = b.
Proof. intros A B H1 H2. apply inherits_le in H1; auto. apply inherits_le in H2; auto. lia. Qed.
Lemma inherits_linear a b c : inherits tb a b -> inherits tb a c -> inherits tb b c \/ inherits tb c b.
Proof.
  induction 1 as [a|a p b S H IH]; auto.
  intros H2. inversion H2; subst.
  - right. eapply inh_step; eauto.
  - rewrite S in H0. injection H0 as <-. auto.
Qed.
Lemma inherits_object c : c < n -> inherits tb c 0.
Proof.
  induction c as [c IH] using lt_wf_ind. intros L.
  destruct (superclass tb c) as [p|] eqn:E.
  - pose proof (super_lt _ _ L E). eapply inh_step; eauto. apply IH; lia.
  - rewrite (super_none _ L E). constructor.
Qed.

Lemma issubtype_f_spec fuel c d : c < n -> c < fuel -> (issubtype_f fuel tb c d = true <-> inherits tb c d).
Proof.
  revert c. induction fuel as [|f IH]; intros c L F; [lia|].
  cbn [issubtype_f]. destruct (d =? c) eqn:E.
  - apply Nat.eqb_eq in E as ->. split; auto. constructor.
  - apply Nat.eqb_neq in E. destruct (superclass tb c) as [p|] eqn:S.
    + pose proof (super_lt _ _ L S). rewrite IH by lia. split.
      * intros. eapply inh_step; eauto.
      * intros H1. inversion H1; subst; congruence.
    + split; [discriminate|]. intros H1. inversion H1; subst; congruence.
Qed.
Lemma issubtype_spec c d : c < n -> (issubtype tb c d = true <-> inherits tb c d).
Proof. intros L. apply issubtype_f_spec; lia. Qed.
Lemma issubtype_false c d : c < n -> (issubtype tb c d = false <-> ~ inherits tb c d).
Proof. intros L. rewrite <- issubtype_spec by auto. destruct (issubtype tb c d); intuition congruence. Qed.

Lemma common_f_spec fuel c d : c < n -> d < n -> c + d < fuel ->
  exists a, common_f fuel tb c d = Some a /\ least_common tb [c; d] a.
Proof.
  revert c d. induction fuel as [|f IH]; intros c d C D F; [lia|].
  cbn [common_f]. destruct (issubtype tb c d) eqn:E1.
  { apply issubtype_spec in E1; auto. exists d. split; auto. split.
    - intros e [<-|[<-|[]]]; auto. constructor.
    - intros b H. apply H. cbn; auto. }
  destruct (issubtype tb d c) eqn:E2.
  { apply issubtype_spec in E2; auto. exists c. split; auto. split.
    - intros e [<-|[<-|[]]]; auto. constructor.
    - intros b H. apply H. cbn; auto. }
  apply issubtype_false in E1; auto. apply issubtype_false in E2; auto.
  destruct (superclass tb c) as [p|] eqn:S.
  - pose proof (super_lt _ _ C S). destruct (IH p d) as (a & E & L1 & L2); try lia.
    exists a. split; auto. split.
    + intros e [<-|[<-|[]]]; [|apply L1; cbn; auto]. eapply inh_step; eauto. apply L1; cbn; auto.
    + intros b Hb. apply L2. intros e [<-|[<-|[]]]; [|apply Hb; cbn; auto].
      assert (inherits tb c b) as X by (apply Hb; cbn; auto).
      inversion X; subst; [|congruence]. exfalso. apply E2. apply Hb. cbn; auto.
  - exfalso. apply super_none in S; auto. subst c. apply E2. now apply inherits_object.
Qed.
Lemma common_spec c d : c < n -> d < n ->
  exists a, get_common_superclass tb c d = Some a /\ least_common tb [c; d] a.
Proof. intros. apply common_f_spec; auto. Qed.

Lemma union_cls_fold l a0 : (forall c, In c l -> c < n) -> a0 < n ->
  exists a, fold_left (fun acc d => match acc with None => None | Some a => get_common_superclass tb a d end) l (Some a0) = Some a
    /\ a < n /\ least_common tb (a0 :: l) a.
Proof.
  revert a0. induction l as [|d l IH]; intros a0 B A0; cbn [fold_left].
  - exists a0. split; auto. split; auto. split.
    + intros c [<-|[]]. constructor.
    + intros b H. apply H. cbn; auto.
  - destruct (common_spec a0 d) as (a1 & E & L1 & L2); auto. { apply B; cbn; auto. }
    rewrite E.
    assert (inherits tb a0 a1) as I0 by (apply L1; cbn; auto).
    pose proof (inherits_le _ _ A0 I0).
    destruct (IH a1) as (a & E2 & B2 & M1 & M2); [intros; apply B; cbn; auto|lia|].
    exists a. split; auto. split; auto. split.
    + intros c [<-|[<-|H1]].
      * eapply inherits_trans; eauto. apply M1; cbn; auto.
      * eapply inherits_trans; [apply L1; cbn; auto|]. apply M1; cbn; auto.
      * apply M1; cbn; auto.
    + intros b H1. apply M2. intros c [<-|H2]; [|apply H1; cbn; auto].
      apply L2. intros e [<-|[<-|[]]]; apply H1; cbn; auto.
Qed.
Lemma union_cls_spec l : l <> [] -> (forall c, In c l -> c < n) ->
  exists a, union_cls tb l = Some a /\ least_common tb l a.
Proof.
  intros N B. destruct l as [|c l]; [congruence|]. unfold union_cls.
  destruct (union_cls_fold (c :: l) c) as (a & E & _ & L1 & L2); auto. { apply B; cbn; auto. }
  exists a. split; auto. split.
  - intros d H. apply L1. cbn; auto.
  - intros b H. apply L2. intros d [<-|H1]; apply H; cbn; auto.
Qed.

(** Lookup. *)
Lemma nearest_unique P c d e : c < n -> nearest tb P c d -> nearest tb P c e -> d = e.
Proof.
  intros L (H1 & H2 & H3) (K1 & K2 & K3).
  pose proof (inherits_le _ _ L H1). pose proof (inherits_le _ _ L K1).
  apply inherits_antisym; auto; lia.
Qed.
Lemma nearest_here (P : cid -> Prop) c : P c -> nearest tb P c c.
Proof. intros H. split; [constructor|]. split; auto. Qed.
Lemma nearest_up (P : cid -> Prop) c p d : superclass tb c = Some p -> ~ P c -> (nearest tb P c d <-> nearest tb P p d).
Proof.
  intros S N. split; intros (H1 & H2 & H3).
  - inversion H1; subst; [tauto|]. rewrite S in H. injection H as <-.
    split; auto. split; auto. intros e He Pe. apply H3; auto. eapply inh_step; eauto.
  - split; [eapply inh_step; eauto|]. split; auto. intros e He Pe.
    inversion He; subst; [tauto|]. rewrite S in H. injection H as <-. auto.
Qed.
Lemma nearest_top (P : cid -> Prop) c d : superclass tb c = None -> ~ P c -> ~ nearest tb P c d.
Proof. intros S N (H1 & H2 & _). inversion H1; subst; [tauto|congruence]. Qed.

Section Lookup.
Context (P : cid -> Prop) (dec : cid -> bool) (DEC : forall c, dec c = true <-> P c).
Fixpoint walk (fuel : nat) (c : cid) : option cid :=
  match fuel with
  | O => None
  | S f => if dec c then Some c else match superclass tb c with Some p => walk f p | None => None end
  end.
Lemma walk_spec fuel c d : c < n -> c < fuel -> (walk fuel c = Some d <-> nearest tb P c d).
Proof.
  revert c. induction fuel as [|f IH]; intros c L F; [lia|].
  cbn [walk]. destruct (dec c) eqn:E.
  - apply DEC in E. split.
    + intros [= <-]. now apply nearest_here.
    + intros H. f_equal. eapply nearest_unique; eauto. now apply nearest_here.
  - assert (~ P c) as N. { rewrite <- DEC. congruence. }
    destruct (superclass tb c) as [p|] eqn:S.
    + pose proof (super_lt _ _ L S). rewrite IH by lia. symmetry. now apply nearest_up.
    + split; [discriminate|]. intros H. exfalso. eapply nearest_top; eauto.
Qed.
Lemma walk_none fuel c : c < n -> c < fuel -> (walk fuel c = None <-> forall d, inherits tb c d -> ~ P d).
Proof.
  revert c. induction fuel as [|f IH]; intros c L F; [lia|].
  cbn [walk]. destruct (dec c) eqn:E.
  - apply DEC in E. split; [discriminate|]. intros H. exfalso. apply (H c); auto. constructor.
  - assert (~ P c) as N. { rewrite <- DEC. congruence. }
    destruct (superclass tb c) as [p|] eqn:S.
    + pose proof (super_lt _ _ L S). rewrite IH by lia. split.
      * intros K d Hd. inversion Hd; subst; auto. rewrite S in H0. injection H0 as <-. auto.
      * intros K d Hd. apply K. eapply inh_step; eauto.
    + split; auto. intros _ d Hd. inversion Hd; subst; auto. congruence.
Qed.
End Lookup.

Lemma lookup_walk sel fuel c x : lookup_f fuel sel tb c x = walk (fun c => mem x (sel (tb c))) fuel c.
Proof. revert c. induction fuel; intros; cbn; auto. destruct (mem _ _); auto. destruct (superclass tb c); auto. Qed.
Lemma method_walk fuel c x :
  get_method_f fuel tb c x = walk (fun c => mem x (c_methods (tb c)) || mem x (c_static (tb c))) fuel c.
Proof.
  revert c. induction fuel; intros; cbn; auto. destruct (mem x (c_methods (tb c))); auto. cbn.
  destruct (mem _ _); auto. destruct (superclass tb c); auto.
Qed.
Lemma method_dec x c : mem x (c_methods (tb c)) || mem x (c_static (tb c)) = true <-> defines_method tb x c.
Proof. rewrite orb_true_iff, !mem_In. reflexivity. Qed.
Lemma function_dec x c : mem x (c_functions (tb c)) = true <-> defines_function tb x c.
Proof. apply mem_In. Qed.

Lemma lookup_spec sel fuel c x d : c < n -> c < fuel ->
  (lookup_f fuel sel tb c x = Some d <-> nearest tb (fun e => In x (sel (tb e))) c d).
Proof. intros. rewrite lookup_walk. apply walk_spec; auto. intros. apply mem_In. Qed.
Lemma lookup_none sel fuel c x : c < n -> c < fuel ->
  (lookup_f fuel sel tb c x = None <-> forall d, inherits tb c d -> ~ In x (sel (tb d))).
Proof. intros. rewrite lookup_walk. apply walk_none with (P := fun e => In x (sel (tb e))); auto. intros. apply mem_In. Qed.
Lemma get_method_spec c x d : c < n -> (get_method tb c x = Some d <-> nearest tb (defines_method tb x) c d).
Proof. intros. unfold get_method. rewrite method_walk. apply walk_spec; auto. intros. apply method_dec. Qed.
Lemma get_method_none c x : c < n -> (get_method tb c x = None <-> forall d, inherits tb c d -> ~ defines_method tb x d).
Proof. intros. unfold get_method. rewrite method_walk. apply walk_none; auto. intros. apply method_dec. Qed.
Lemma get_function_spec c x d : c < n -> (get_function tb c x = Some d <-> nearest tb (defines_function tb x) c d).
Proof. intros. apply lookup_spec; auto. Qed.
Lemma get_function_none c x : c < n -> (get_function tb c x = None <-> forall d, inherits tb c d -> ~ defines_function tb x d).
Proof. intros. apply lookup_none; auto. Qed.

(** If no method shadows a function of a superclass, the member found is the nearest. *)
Lemma get_func_or_method_spec c x : c < n -> separate n tb ->
  (forall d e, inherits tb c d -> inherits tb d e -> defines_method tb x d -> ~ defines_function tb x e) ->
  forall d, get_func_or_method tb c x = Some d <-> nearest tb (defines tb x) c d.
Proof.
  intros L SEP NS d. unfold get_func_or_method. destruct (get_function tb c x) as [f|] eqn:F.
  - apply get_function_spec in F; auto. destruct F as (F1 & F2 & F3).
    assert (nearest tb (defines tb x) c f) as NF.
    { split; auto. split; [now left|]. intros e He [Fe|Me]; auto.
      destruct (inherits_linear _ _ _ F1 He) as [|K]; auto. exfalso. eapply NS; eauto. }
    split; [intros [= <-]; auto|]. intros H. f_equal. eapply nearest_unique; eauto.
  - pose proof (proj1 (get_function_none c x L) F) as NF.
    rewrite get_method_spec by auto. split; intros (H1 & H2 & H3).
    + split; auto. split; [now right|]. intros e He [Fe|Me]; auto. exfalso. eapply NF; eauto.
    + split; auto. split. { destruct H2; auto. exfalso. eapply NF; eauto. }
      intros e He Me. apply H3; auto. now right.
Qed.

(** Subclasses. *)
Section Subs.
Context (SUBS : wf_subs n tb).
Lemma all_subclasses_f_spec fuel c d : c < n -> n - c <= fuel ->
  (In d (all_subclasses_f fuel tb c) <-> d < n /\ inherits tb d c).
Proof.
  destruct SUBS as [S1 S2].
  revert c. induction fuel as [|f IH]; intros c L F; [lia|].
  cbn [all_subclasses_f In]. rewrite in_flat_map. split.
  - intros [<-|(e & He & Hd)]; [split; auto; constructor|].
    destruct (S1 _ _ L He) as (E1 & E2 & E3). pose proof (inherits_le _ _ E1 E3).
    apply IH in Hd; try lia. destruct Hd as [D1 D2]. split; auto. eapply inherits_trans; eauto.
  - intros [D H].
    assert (d = c \/ exists e, superclass tb e = Some c /\ inherits tb d e) as [->|(e & E1 & E2)].
    { clear -H. induction H as [|a p b S H IH]; auto. right. destruct IH as [->|(e & E1 & E2)].
      - exists a. split; auto. constructor.
      - exists e. split; auto. eapply inh_step; eauto. }
    + now left.
    + right. exists e. pose proof (inherits_le _ _ D E2).
      assert (e < n) as E by lia. pose proof (super_lt _ _ E E1).
      split; auto. apply IH; auto; lia.
Qed.
Lemma all_subclasses_spec c d : c < n -> (In d (all_subclasses n tb c) <-> d < n /\ inherits tb d c).
Proof. intros. apply all_subclasses_f_spec; auto. Qed.

Section Topo.
Context (set : list cid) (B : forall c, In c set -> c < n).

Lemma deps_spec c d : c < n -> (In d (class_deps n tb set c) <-> In d set /\ inherits tb d c).
Proof.
  intros L. unfold class_deps. rewrite filter_In, mem_In, all_subclasses_spec by auto.
  split; [tauto|]. intros [H1 H2]. auto.
Qed.

Lemma max_exists (l : list nat) : l <> [] -> exists m, In m l /\ forall x, In x l -> x <= m.
Proof.
  induction l as [|a l IH]; [congruence|]. intros _. destruct l as [|b l].
  - exists a. split; [now left|]. intros x [<-|[]]. auto.
  - destruct IH as (m & M1 & M2); [discriminate|].
    destruct (le_lt_dec a m).
    + exists m. split; [now right|]. intros x [<-|H]; auto.
    + exists a. split; [now left|]. intros x [<-|H]; auto. specialize (M2 _ H). lia.
Qed.

Definition blocked (rest : list cid) (c : cid) : bool :=
  existsb (fun d => negb (d =? c) && mem d rest) (class_deps n tb set c).
Lemma blocked_spec rest c : c < n -> (forall x, In x rest -> In x set) ->
  (blocked rest c = true <-> exists d, In d rest /\ d <> c /\ inherits tb d c).
Proof.
  intros L SUB. unfold blocked. rewrite existsb_exists. split.
  - intros (d & D & E). apply deps_spec in D; auto. apply andb_prop in E as [E1 E2].
    apply mem_In in E2. exists d. repeat split; [auto| |apply D].
    intros ->. rewrite Nat.eqb_refl in E1. discriminate.
  - intros (d & D1 & D2 & D3). exists d. split. { apply deps_spec; auto. }
    apply andb_true_intro. split; [|now apply mem_In].
    apply Nat.eqb_neq in D2. now rewrite D2.
Qed.

Lemma filter_perm (f : cid -> bool) l : Permutation l (filter (fun c => negb (f c)) l ++ filter f l).
Proof.
  induction l as [|a l IH]; cbn; auto. destruct (f a); cbn; auto.
  apply Permutation_cons_app. exact IH.
Qed.

Lemma toposort_f_spec fuel rest : (forall x, In x rest -> In x set) -> length rest <= fuel ->
  exists o, toposort_f fuel (class_deps n tb set) rest = Some o /\ Permutation rest o /\
    (forall l1 c l2 d, o = l1 ++ c :: l2 -> In d rest -> d <> c -> inherits tb d c -> In d l1).
Proof.
  revert rest. induction fuel as [|f IH]; intros rest SUB F.
  - destruct rest; [|cbn in F; lia]. exists []. split; auto. split; auto. intros ? ? ? ? _ [].
  - destruct rest as [|r0 rest0]. { exists []. split; auto. split; auto. intros ? ? ? ? _ []. }
    remember (r0 :: rest0) as rest eqn:R.
    assert (toposort_f (S f) (class_deps n tb set) rest =
      match filter (fun c => negb (blocked rest c)) rest with
      | [] => None
      | _ => option_map (app (filter (fun c => negb (blocked rest c)) rest)) (toposort_f f (class_deps n tb set) (filter (blocked rest) rest))
      end) as ->.
    { rewrite R. reflexivity. }
    destruct (max_exists rest) as (m & M1 & M2). { rewrite R. discriminate. }
    assert (blocked rest m = false) as BM.
    { destruct (blocked rest m) eqn:E; auto. apply blocked_spec in E; auto.
      destruct E as (d & D1 & D2 & D3). apply inherits_le in D3; auto. specialize (M2 _ D1). lia. }
    assert (In m (filter (fun c => negb (blocked rest c)) rest)) as MI.
    { apply filter_In. rewrite BM. auto. }
    pose proof (filter_perm (blocked rest) rest) as PERM.
    destruct (IH (filter (blocked rest) rest)) as (o & E & P1 & P2).
    { intros x Hx. apply filter_In in Hx. apply SUB. tauto. }
    { apply Permutation_length in PERM. rewrite app_length in PERM.
      destruct (filter (fun c => negb (blocked rest c)) rest); [destruct MI|]. cbn in PERM. lia. }
    rewrite E. exists (filter (fun c => negb (blocked rest c)) rest ++ o).
    split. { destruct (filter (fun c => negb (blocked rest c)) rest); [destruct MI|reflexivity]. }
    split. { rewrite PERM at 1. apply Permutation_app_head. exact P1. }
    intros l1 c l2 d EQ D1 D2 D3.
    assert (forall (A B X Y : list cid) c, A ++ B = X ++ c :: Y ->
      (exists Z, A = X ++ c :: Z) \/ (exists Z, X = A ++ Z /\ B = Z ++ c :: Y)) as SPLIT.
    { clear. induction A as [|a A IHA]; intros B X Y c H; cbn in H.
      - right. exists X. auto.
      - destruct X as [|x X]; cbn in H; injection H as -> H.
        + left. exists A. auto.
        + destruct (IHA _ _ _ _ H) as [(Z & ->)|(Z & -> & ->)]; [left|right]; exists Z; auto. }
    destruct (SPLIT _ _ _ _ _ EQ) as [(Z & EA)|(Z & -> & EB)].
    + exfalso. assert (In c (filter (fun c => negb (blocked rest c)) rest)) as IC.
      { rewrite EA. apply in_or_app. right. now left. }
      apply filter_In in IC as [IC1 IC2]. apply negb_true_iff in IC2.
      assert (blocked rest c = true) as K. { apply blocked_spec; auto. exists d. auto. }
      congruence.
    + apply in_or_app. destruct (blocked rest d) eqn:BD.
      * right. eapply P2; eauto. apply filter_In. auto.
      * left. apply filter_In. rewrite BD. auto.
Qed.

Lemma toposort_spec : exists o, toposort_classes n tb set = Some o /\ Permutation set o /\ derived_first tb o.
Proof.
  destruct (toposort_f_spec (length set) set) as (o & E & P & D); auto.
  exists o. split; auto. split; auto.
  intros l1 c l2 d EQ IN. apply (D l1 c l2 d EQ). eapply Permutation_in; [symmetry; exact P|auto].
Qed.
End Topo.

Lemma chain_cond_run {E} (l : list (cid * E)) (holds : cid -> bool) :
  (exists g e, In (g, e) l /\ holds g = true) ->
  exists t l1 g e l2, chain_cond_exp l = Some t /\ l = l1 ++ (g, e) :: l2 /\ holds g = true /\
    (forall g' e', In (g', e') l1 -> holds g' = false) /\ run_cond holds t = e.
Proof.
  induction l as [|(g, e) l IH]; intros (g0 & e0 & IN & H); [destruct IN|].
  destruct (holds g) eqn:HG.
  - destruct l as [|(g1, e1) [|x l]].
    + exists (CLeaf e), [], g, e, []. cbn. repeat split; auto. intros ? ? [].
    + exists (CCond g e (CLeaf e1)), [], g, e, [(g1, e1)]. cbn. rewrite HG. repeat split; auto. intros ? ? [].
    + assert (forall l : list (cid * E), l <> [] -> exists t, chain_cond_exp l = Some t) as TOT.
      { clear. intros l. induction l as [|(a, b) l IH]; [congruence|]. intros _.
        destruct l as [|(a1, b1) [|y l]]; [eexists; reflexivity|eexists; reflexivity|].
        destruct IH as (t & Ht); [discriminate|]. exists (CCond a b t).
        change (option_map (CCond a b) (chain_cond_exp ((a1, b1) :: y :: l)) = Some (CCond a b t)). now rewrite Ht. }
      destruct (TOT ((g1, e1) :: x :: l)) as (t & Ht); [discriminate|].
      exists (CCond g e t), [], g, e, ((g1, e1) :: x :: l).
      split. { change (option_map (CCond g e) (chain_cond_exp ((g1, e1) :: x :: l)) = Some (CCond g e t)). now rewrite Ht. }
      cbn [run_cond]. rewrite HG. repeat split; auto. intros ? ? [].
  - destruct IN as [[= -> ->]|IN]; [congruence|].
    destruct IH as (t & l1 & g2 & e2 & l2 & C & EQ & H2 & N & R). { eauto. }
    destruct l as [|(g1, e1) [|x l]]; [destruct IN| |].
    + exists (CCond g e (CLeaf e1)), ((g, e) :: l1), g2, e2, l2.
      cbn [chain_cond_exp] in C. injection C as <-.
      split; auto. split; [now rewrite EQ|]. split; auto. split.
      { intros g' e' [[= <- <-]|K]; auto. eapply N; eauto. }
      cbn [run_cond]. now rewrite HG.
    + exists (CCond g e t), ((g, e) :: l1), g2, e2, l2.
      split. { change (option_map (CCond g e) (chain_cond_exp ((g1, e1) :: x :: l)) = Some (CCond g e t)). now rewrite C. }
      split; [now rewrite EQ|]. split; auto. split.
      { intros g' e' [[= <- <-]|K]; auto. eapply N; eauto. }
      cbn [run_cond]. now rewrite HG.
Qed.
Lemma chain_ifs_run {E} (l : list (cid * E)) (holds : cid -> bool) :
  (exists g e, In (g, e) l /\ holds g = true) ->
  exists l1 g e l2, l = l1 ++ (g, e) :: l2 /\ holds g = true /\
    (forall g' e', In (g', e') l1 -> holds g' = false) /\ run_ifs holds (chain_if_stmts l) = Some e.
Proof.
  induction l as [|(g, e) l IH]; intros (g0 & e0 & IN & H); [destruct IN|].
  cbn [chain_if_stmts run_ifs]. destruct (holds g) eqn:HG.
  - exists [], g, e, l. repeat split; auto. intros ? ? [].
  - destruct IN as [[= -> ->]|IN]; [congruence|].
    destruct IH as (l1 & g2 & e2 & l2 & EQ & H2 & N & R); eauto.
    exists ((g, e) :: l1), g2, e2, l2. split; [now rewrite EQ|]. split; auto. split; auto.
    intros g' e' [[= <- <-]|K]; auto. eapply N; eauto.
Qed.

Lemma map_split {A B} (f : A -> B) l l1 b l2 : map f l = l1 ++ b :: l2 ->
  exists k1 a k2, l = k1 ++ a :: k2 /\ l1 = map f k1 /\ b = f a /\ l2 = map f k2.
Proof.
  revert l1. induction l as [|x l IH]; intros l1 H; cbn in H. { destruct l1; discriminate. }
  destruct l1 as [|y l1]; cbn in H; injection H as H1 H2.
  - exists [], x, l. subst. auto.
  - destruct (IH _ H2) as (k1 & a & k2 & -> & -> & -> & ->). exists (x :: k1), a, k2. subst. auto.
Qed.

(** Dispatch picks the entry of the most specific class of the union. *)
Lemma dispatch_select set r o : (forall c, In c set -> c < n) -> r < n -> Permutation set o -> derived_first tb o ->
  forall c k1 k2, o = k1 ++ c :: k2 -> inherits tb r c -> (forall e, In e k1 -> ~ inherits tb r e) ->
  nearest tb (fun e => In e set) r c.
Proof.
  intros B R P D c k1 k2 EQ RC NO. split; auto. split.
  { eapply Permutation_in; [symmetry; exact P|]. rewrite EQ. apply in_or_app. right. now left. }
  intros e RE IE. destruct (Nat.eq_dec e c) as [->|NE]; [constructor|].
  destruct (inherits_linear _ _ _ RC RE) as [|K]; auto.
  exfalso. apply (NO e); auto. eapply D; eauto. eapply Permutation_in; eauto.
Qed.

Lemma union_dispatch_spec set x r : (forall c, In c set -> c < n) -> r < n ->
  (exists c, In c set /\ inherits tb r c) ->
  exists t c, union_dispatch n tb set x = Some t /\ nearest tb (fun e => In e set) r c /\
    run_cond (fun g => issubtype tb r g) t = get_func_or_method tb c x.
Proof.
  intros B R (c0 & C0 & RC0). destruct (toposort_spec set B) as (o & E & P & D).
  unfold union_dispatch. rewrite E.
  destruct (chain_cond_run (map (fun c => (c, get_func_or_method tb c x)) o) (fun g => issubtype tb r g))
    as (t & l1 & g & e & l2 & C & EQ & HG & N & RUN).
  { exists c0, (get_func_or_method tb c0 x). split.
    - apply in_map_iff. exists c0. split; auto. eapply Permutation_in; eauto.
    - now apply issubtype_spec. }
  destruct (map_split _ _ _ _ _ EQ) as (k1 & a & k2 & -> & -> & A & ->). injection A as -> ->.
  exists t, a. split; auto. split; auto.
  eapply dispatch_select; eauto. { now apply issubtype_spec. }
  intros e He. apply issubtype_false; auto. eapply N. apply in_map_iff. exists e. split; eauto.
Qed.
Lemma union_dispatch_stmt_spec set x r : (forall c, In c set -> c < n) -> r < n ->
  (exists c, In c set /\ inherits tb r c) ->
  exists t c, union_dispatch_stmt n tb set x = Some t /\ nearest tb (fun e => In e set) r c /\
    run_ifs (fun g => issubtype tb r g) t = Some (get_func_or_method tb c x).
Proof.
  intros B R (c0 & C0 & RC0). destruct (toposort_spec set B) as (o & E & P & D).
  unfold union_dispatch_stmt. rewrite E. cbn [option_map].
  destruct (chain_ifs_run (map (fun c => (c, get_func_or_method tb c x)) o) (fun g => issubtype tb r g))
    as (l1 & g & e & l2 & EQ & HG & N & RUN).
  { exists c0, (get_func_or_method tb c0 x). split.
    - apply in_map_iff. exists c0. split; auto. eapply Permutation_in; eauto.
    - now apply issubtype_spec. }
  destruct (map_split _ _ _ _ _ EQ) as (k1 & a & k2 & -> & -> & A & ->). injection A as -> ->.
  eexists _, a. split; [reflexivity|]. split; auto.
  eapply dispatch_select; eauto. { now apply issubtype_spec. }
  intros e He. apply issubtype_false; auto. eapply N. apply in_map_iff. exists e. split; eauto.
Qed.
End Subs.

(** Overrides. *)
Lemma contents_defines x c : In x (get_contents tb c) <-> defines tb x c.
Proof.
  unfold get_contents, defines, defines_function, defines_method. rewrite !in_app_iff. tauto.
Qed.
Lemma override_check_spec x c d :
  override_check tb x c d = true <-> defines_method tb x c /\ superclass tb c = Some d /\ defines tb x d.
Proof.
  unfold override_check, overrides. rewrite andb_true_iff, method_dec.
  destruct (superclass tb c) as [p|]; [|intuition discriminate].
  destruct (mem x (get_contents tb p)) eqn:M.
  - apply mem_In, contents_defines in M. rewrite Nat.eqb_eq. split.
    + intros [H ->]. auto.
    + intros (H1 & [= ->] & H2). auto.
  - split; [intuition discriminate|]. intros (H1 & [= ->] & H2). exfalso.
    apply contents_defines, mem_In in H2. congruence.
Qed.
Lemma checked_spec x c d : c < n -> defines_method tb x c -> inherits tb c d ->
  (forall e, inherits tb c e -> inherits tb e d -> defines_method tb x e) -> checked tb x c d.
Proof.
  intros L M H. revert M. induction H as [c|c p d S H IH]; intros M ALL; [constructor|].
  pose proof (super_lt _ _ L S).
  assert (defines_method tb x p) as MP. { apply ALL; auto. eapply inh_step; eauto. constructor. }
  eapply chk_step.
  - apply override_check_spec. repeat split; eauto. now right.
  - apply IH; auto; [lia|]. intros e H1 H2. apply ALL; auto. eapply inh_step; eauto.
Qed.
Lemma checked_inherits x c d : checked tb x c d -> inherits tb c d /\ (c = d \/ defines tb x d).
Proof.
  induction 1 as [c|c p d O H [IH1 IH2]]; [split; [constructor|auto]|].
  apply override_check_spec in O as (M & S & P). split; [eapply inh_step; eauto|].
  right. destruct IH2 as [<-|]; auto.
Qed.

(** If every class between also defines the member, nothing shadows a function. *)
Lemma accepted_no_shadow c x : c < n -> accepted n tb -> separate n tb ->
  (forall d e f, inherits tb c d -> inherits tb d e -> inherits tb e f -> defines tb x d -> defines tb x f -> defines tb x e) ->
  forall d e, inherits tb c d -> inherits tb d e -> defines_method tb x d -> ~ defines_function tb x e.
Proof.
  intros L ACC SEP GAP d e CD DE MD FE.
  pose proof (inherits_le _ _ L CD) as LD. assert (d < n) as D by lia. clear LD.
  revert CD MD D. induction DE as [d|d p e S H IH]; intros CD MD D.
  - eapply SEP; eauto.
  - assert (defines tb x p) as DP.
    { eapply (GAP d p e); eauto. - eapply inh_step; eauto. constructor. - now right. - now left. }
    pose proof (super_lt _ _ D S).
    pose proof (ACC d x D (or_intror MD)) as A. unfold accepted_member, overrides in A. rewrite S in A.
    assert (mem x (get_contents tb p) = true) as M. { apply mem_In. now apply contents_defines. }
    rewrite M in A. apply andb_prop in A as [A1 A2]. unfold is_function in A2.
    apply negb_true_iff, mem_not in A2.
    apply IH; auto; [| |lia].
    + eapply inherits_trans; [exact CD|]. eapply inh_step; eauto. constructor.
    + destruct DP; auto. contradiction.
Qed.

(** Generic types, class targets. *)
Lemma class_issubtype_f_cls fuel c d : c < n -> c < fuel ->
  class_issubtype_f fuel tb c (PCls d) = issubtype_f fuel tb c d.
Proof.
  revert c. induction fuel as [|f IH]; intros c L F; [lia|].
  cbn [class_issubtype_f issubtype_f]. destruct (d =? c) eqn:E; auto.
  unfold class_superclass, superclass. destruct (c_super (tb c)) as [(p, l)|] eqn:S; auto. cbn [option_map fst].
  assert (p < c) as P. { apply super_lt; auto. unfold superclass. now rewrite S. }
  destruct l as [|a l].
  - apply IH; lia.
  - cbn [generic_issubtype]. apply eq_true_iff_eq.
    rewrite issubtype_spec, issubtype_f_spec by lia. reflexivity.
Qed.
Lemma ptype_issubtype_cls t d : (match t with PCls c | PGen c _ => c end) < n ->
  (ptype_issubtype tb t (PCls d) = true <-> inherits tb (match t with PCls c | PGen c _ => c end) d).
Proof.
  intros L. destruct t as [c|c args]; cbn [ptype_issubtype generic_issubtype].
  - rewrite class_issubtype_f_cls by lia. apply issubtype_spec; auto.
  - now apply issubtype_spec.
Qed.
End Table.

Lemma texpr_ind' (P : texpr -> Prop) :
  (forall i, P (TVar i)) -> (forall c l, Forall P l -> P (TApp c l)) -> forall t, P t.
Proof.
  intros V A. fix IH 1. intros [i|c l]; [apply V|]. apply A.
  induction l; constructor; auto.
Qed.
Lemma texpr_eqb_go l m :
  (fix go (l m : list texpr) {struct l} : bool :=
       match l, m with
       | [], [] => true
       | x :: l', y :: m' => texpr_eqb x y && go l' m'
       | _, _ => false
       end) l m = texprs_eqb l m.
Proof. revert m. induction l; destruct m; cbn; auto. Qed.
Lemma texpr_eqb_spec a b : texpr_eqb a b = true <-> a = b.
Proof.
  revert b. induction a as [i|c l IH] using texpr_ind'; intros [j|d m]; cbn [texpr_eqb]; try (split; discriminate).
  - rewrite Nat.eqb_eq. split; congruence.
  - rewrite texpr_eqb_go, andb_true_iff, Nat.eqb_eq.
    assert (texprs_eqb l m = true <-> l = m) as ->.
    { revert m. induction IH as [|x l Hx _ IHl]; intros [|y m]; cbn [texprs_eqb]; try (split; congruence).
      - rewrite andb_true_iff, Hx, IHl. split; [intros [-> ->]; auto|intros [= -> ->]; auto]. }
    split; [intros [-> ->]; auto|intros [= -> ->]; auto].
Qed.
Lemma texprs_eqb_spec l m : texprs_eqb l m = true <-> l = m.
Proof.
  revert m. induction l as [|x l IH]; intros [|y m]; cbn [texprs_eqb]; try (split; congruence).
  rewrite andb_true_iff, texpr_eqb_spec, IH. split; [intros [-> ->]; auto|intros [= -> ->]; auto].
Qed.

(** Generic types whose bases pass the type arguments on. *)
Lemma map_inst_vars args : map (inst args) (vars (length args)) = args.
Proof.
  unfold vars. rewrite map_map. cbn [inst].
  assert (forall (l pre : list texpr) , map (fun i => nth i (pre ++ l) (TVar i)) (seq (length pre) (length l)) = l) as K.
  { induction l as [|x l IH]; intros pre; cbn; auto. rewrite app_nth2, Nat.sub_diag by lia. cbn. f_equal.
    specialize (IH (pre ++ [x])). rewrite app_length, <- app_assoc in IH. cbn in IH.
    now rewrite Nat.add_1_r in IH. }
  apply (K args []).
Qed.
Lemma below_inherits tb t u : below tb t u -> match t, u with TApp c _, TApp d _ => inherits tb c d | _, _ => True end.
Proof.
  induction 1 as [[i|c l]|c args p l u S B IH]; auto; [constructor|].
  destruct u as [|d m]; auto. eapply inh_step; eauto. unfold superclass. now rewrite S.
Qed.
Lemma generic_passes n tb : wf_table n tb -> forall c d args bs, c < n -> length args = c_nvars (tb c) ->
  (forall e p l, inherits tb c e -> e <> d -> inherits tb e d -> c_super (tb e) = Some (p, l) -> l = vars (c_nvars (tb e))) ->
  (ptype_issubtype tb (PGen c args) (PGen d bs) = true <-> below tb (TApp c args) (TApp d bs)).
Proof.
  intros WF c d args bs C LEN PASS. cbn [ptype_issubtype generic_issubtype].
  rewrite andb_true_iff, texprs_eqb_spec, (issubtype_spec n) by auto. split.
  - intros [H <-]. revert C LEN PASS. induction H as [c|c p d S H IH]; intros C LEN PASS; [constructor|].
    destruct (Nat.eq_dec c d) as [->|NE]; [constructor|].
    unfold superclass in S. destruct (c_super (tb c)) as [(q, l)|] eqn:E; [|discriminate]. injection S as <-.
    assert (l = vars (c_nvars (tb c))) as ->.
    { eapply PASS; eauto; [constructor|]. eapply inh_step; eauto. unfold superclass. now rewrite E. }
    assert (q < c) as QC. { eapply super_lt; eauto. unfold superclass. now rewrite E. }
    destruct (wf_super _ _ WF c) as (q' & k & E' & _ & L & _); [lia|]. rewrite E in E'. injection E' as <- <-.
    eapply below_step; eauto. rewrite <- LEN, map_inst_vars. apply IH; [lia| |].
    + rewrite LEN. unfold vars in L. now rewrite map_length, seq_length in L.
    + intros e p l H1 H2 H3 H4. eapply PASS; eauto. eapply inh_step; eauto. unfold superclass. now rewrite E.
  - intros B. split; [exact (below_inherits _ _ _ B)|].
    remember (TApp c args) as t eqn:T. remember (TApp d bs) as u eqn:U.
    revert c args T U C LEN PASS. induction B as [t|c0 a0 p l u S B IH]; intros c args T U C LEN PASS.
    + congruence.
    + injection T as -> ->. destruct (Nat.eq_dec c d) as [->|NE].
      * exfalso. subst u. apply below_inherits in B. cbn in B.
        assert (superclass tb d = Some p) as SP by (unfold superclass; now rewrite S).
        pose proof (super_lt _ _ WF _ _ C SP). pose proof (inherits_le _ _ WF _ _ ltac:(eapply Nat.lt_trans; eauto) B). lia.
      * assert (superclass tb c = Some p) as SP by (unfold superclass; now rewrite S).
        assert (inherits tb c d) as CD. { eapply inh_step; eauto. subst u. exact (below_inherits _ _ _ B). }
        assert (l = vars (c_nvars (tb c))) as ->. { eapply PASS; eauto. constructor. }
        pose proof (super_lt _ _ WF _ _ C SP).
        destruct (wf_super _ _ WF c) as (q' & k & E' & _ & L & _); [lia|]. rewrite S in E'. injection E' as <- <-.
        rewrite <- LEN, map_inst_vars in IH. apply (IH p args); auto; [lia| |].
        -- rewrite LEN. unfold vars in L. now rewrite map_length, seq_length in L.
        -- intros e q m H1 H2 H3 H4. eapply PASS; eauto. eapply inh_step; eauto.
Qed.
(** Bases whose arguments are type variables or contain none. *)
Lemma inst_no_var args t : no_var t = true -> inst args t = t.
Proof.
  induction t as [i|c l IH] using texpr_ind'; cbn; [discriminate|]. intros H. f_equal.
  rewrite forallb_forall in H. rewrite Forall_forall in IH.
  transitivity (map (fun x => x) l); [|apply map_id]. apply map_ext_in. auto.
Qed.
Lemma generic_superclass_spec tb c args p l : c_super (tb c) = Some (p, l) ->
  Forall (fun t => match t with TVar _ => True | _ => no_var t = true end) l ->
  exists t, generic_superclass tb c args = Some t /\ ptype_texpr t = TApp p (map (inst args) l).
Proof.
  intros S F. unfold generic_superclass. rewrite S. destruct l as [|x l]; [eexists; split; reflexivity|].
  eexists. split; [reflexivity|]. cbn [ptype_texpr]. f_equal. apply map_ext_in. intros y Hy.
  rewrite Forall_forall in F. specialize (F y Hy). destruct y; [reflexivity|]. symmetry. now apply inst_no_var.
Qed.
