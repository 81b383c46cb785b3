From Coq Require Import List Arith ZArith Bool Lia.
From Verif Require Import ClsModel ClsSpec ClsProofs ClsAxProofs TupSpec TupModel.
Import ListNotations.

Lemma ann_ind' (P : ann -> Prop) :
  (forall t, P (AObj t)) -> P ANone -> (forall l, Forall P l -> P (ATuple l)) ->
  (forall a, P a -> P (ATupleVar a)) -> (forall l, Forall P l -> P (AUnion l)) ->
  (forall a, P a -> P (AOpt a)) -> forall a, P a.
Proof.
  intros H1 H2 H3 H4 H5 H6. fix IH 1. intros [t| |l|a|l|a]; [apply H1|apply H2|apply H3|apply H4; apply IH|apply H5|apply H6; apply IH];
    induction l; constructor; auto.
Qed.

Lemma forall2_length {A B} (R : A -> B -> Prop) l m : Forall2 R l m -> length l = length m.
Proof. induction 1; cbn; auto. Qed.

Section Facts.
  Context (n : nat) (tb : table) (WF : wf_table n tb).
  Context (I : interp) (T : tuples I).
  Notation sub a b := (subtype I a b = true).
  Notation wft := (wf_texpr n tb 0).

  Lemma at_nat s i x : nth_error s i = Some x -> at_ I T s (Z.of_nat i) = x.
  Proof.
    intros E. unfold at_. replace (0 <=? Z.of_nat i)%Z with true by (symmetry; apply Z.leb_le; lia).
    rewrite Nat2Z.id. apply nth_error_nth. exact E.
  Qed.
  Lemma in_range_nth (s : list (PyType I)) i : in_range I s i -> exists k x, i = Z.of_nat k /\ nth_error s k = Some x.
  Proof.
    intros [A B]. exists (Z.to_nat i). destruct (nth_error s (Z.to_nat i)) as [x|] eqn:E.
    - exists x. split; [lia|reflexivity].
    - apply nth_error_None in E. lia.
  Qed.
  Lemma range_all (P : PyType I -> Prop) s : (forall i, in_range I s i -> P (at_ I T s i)) <-> Forall P s.
  Proof.
    split.
    - intros H. apply Forall_forall. intros x Hx. apply In_nth_error in Hx as (k & E).
      rewrite <- (at_nat _ _ _ E). apply H. split; [lia|]. assert (k < length s) by (apply nth_error_Some; congruence). lia.
    - intros H i R. apply in_range_nth in R as (k & x & -> & E). rewrite (at_nat _ _ _ E).
      rewrite Forall_forall in H. apply H. eapply nth_error_In; eauto.
  Qed.

  Context (AX : class_axioms n tb I) (CA : common_axioms I T n tb).
  Lemma trans_ a b c : sub a b -> sub b c -> sub a c.
  Proof. intros H1 H2. destruct AX as (_ & t & _). apply (t a b c). now rewrite H1, H2. Qed.
  Lemma refl_ a : sub a a.
  Proof. destruct AX as (_ & _ & r & _). apply r. Qed.
  Lemma object_ a : sub a (object_t I).
  Proof. destruct AX as (_ & _ & _ & _ & _ & _ & o & _). apply o. Qed.

  (** ** The two contradictions *)
  Lemma contradiction_1 : ~ ax_args_subtype_2 I T.
  Proof.
    intros A. destruct CA as (_ & _ & ad & _ & _ & _ & _ & vt & _).
    set (V := tuple_var T (object_t I)).
    pose proof (A V _ (refl_ V)) as H.
    assert (forall s : list (PyType I), length s = length (tuple_args T V)) as K.
    { intros s. rewrite <- (ad s (tuple T s)) by apply refl_.
      apply ad. eapply trans_; [|exact H]. apply vt. intros. apply object_. }
    specialize (K []) as K0. specialize (K [object_t I]) as K1. cbn in K0, K1. congruence.
  Qed.
  Lemma contradiction_2 c : c < n -> c <> none_id -> c_super (tb c) = Some (object_id, []) -> c_nvars (tb c) = 0 ->
    ~ ax_arg_def_2 I T.
  Proof.
    intros C N S V A. destruct CA as (_ & _ & _ & _ & _ & _ & _ & vt & _).
    set (X := tuple_arg T (tuple T []) 0%Z).
    assert (forall t, sub X t) as B.
    { intros t. apply A. apply vt. intros i [R1 R2]. cbn in R2. lia. }
    assert (wft (TApp c [])) as W by (constructor; [exact C|now rewrite V|constructor]).
    destruct (wf_none _ _ WF) as [SN VN]. pose proof (wf_two _ _ WF).
    assert (wft (TApp none_id [])) as WN by (constructor; [unfold none_id; lia|now rewrite VN|constructor]).
    destruct AX as (uq & _ & _ & _ & _ & _ & _ & ex & _ & pr & ca & _).
    destruct (ca c _ _ [] C S) as [E1 _]; [now rewrite V|].
    destruct (ca none_id _ _ [] ltac:(unfold none_id; lia) SN) as [E2 _]; [now rewrite VN|].
    cbn [map] in E1, E2.
    assert (cls_type I c [] <> cls_type I none_id []) as D.
    { intros E. assert (UType c = UType none_id) as Q; [|congruence]. apply uq; cbn; auto; split; auto. }
    pose proof (ex _ _ (cls_type I object_id []) (andb_true_intro (conj E1 E2)) D) as P. apply andb_prop in P as [P _].
    pose proof (pr X (cls_type I c []) (cls_type I none_id [])) as Q. rewrite (B _), P, (B _) in Q.
    discriminate (Q eq_refl).
  Qed.

  (** ** Tuples and classes *)
  Lemma basic_class c l : wft (TApp c l) -> c <> 0 -> ~ basic_or_top I T (denote I (TApp c l)).
  Proof.
    intros W N. unfold basic_or_top. inversion W as [|c' l' C L F]; subst.
    destruct CA as (tu & _). destruct AX as (uq & _ & _ & _ & _ & _ & _ & _ & _ & _ & ca & _).
    destruct (wf_super _ _ WF c) as (p & m & S & P & Q & R); [lia|].
    destruct (ca c p m (map (denote I) l) C S) as [_ B]. { now rewrite map_length. }
    change (denote I (TApp c l)) with (cls_type I c (map (denote I) l)). rewrite B.
    destruct (wf_object _ _ WF) as [_ VO]. pose proof (wf_two _ _ WF).
    destruct (c_nvars (tb c) =? 0) eqn:V.
    - apply Nat.eqb_eq in V. assert (l = []) as -> by (destruct l; [reflexivity|cbn in L; lia]). cbn [map].
      intros [E|[E|E]].
      + apply (tu (UType c)); [split; auto|exact E].
      + assert (UType c = UType object_id) as K; [|injection K as K; exact (N K)]. apply uq; cbn; auto; split; auto; unfold object_id; lia.
      + assert (UType c = UUnion) as K; [|congruence]. apply uq; cbn; auto.
    - apply Nat.eqb_neq in V. intros [E|[E|E]].
      + apply (tu (UBasic c)); [split; auto|exact E].
      + assert (UBasic c = UType object_id) as K; [|congruence]. apply uq; cbn; auto; split; auto; unfold object_id; lia.
      + assert (UBasic c = UUnion) as K; [|congruence]. apply uq; cbn; auto.
  Qed.
  Lemma wf_none_t : wft (TApp none_id []).
  Proof.
    destruct (wf_none _ _ WF) as [SN VN]. pose proof (wf_two _ _ WF).
    constructor; [unfold none_id; lia|now rewrite VN|constructor].
  Qed.
  (** Something that is below a class other than object is no tuple. *)
  Lemma class_not_tuple Z c l : wft (TApp c l) -> c <> 0 -> sub Z (denote I (TApp c l)) ->
    (forall s, ~ sub Z (tuple T s)) /\ (forall t, ~ sub Z (tuple_var T t)).
  Proof.
    intros W N S. destruct CA as (_ & _ & _ & _ & _ & _ & _ & _ & _ & b1 & b2). split.
    - intros s H. exact (basic_class c l W N (b1 _ _ _ H S)).
    - intros t H. exact (basic_class c l W N (b2 _ _ _ H S)).
  Qed.
  Lemma null_below : sub (typeof I (null I)) (denote I (TApp none_id [])).
  Proof. destruct AX as (_ & _ & _ & _ & nt & _). apply (nt (null I)). reflexivity. Qed.

  Hypothesis NF : none_final n tb.
  Lemma below_none t u : wft t -> below tb t u -> u = TApp none_id [] -> t = u.
  Proof.
    intros W B. induction B as [t0|c args p l u S B IH]; [reflexivity|]. intros ->. exfalso.
    inversion W as [|c' l' C L F]; subst.
    assert (wft (TApp p (map (inst args) l))) as W2.
    { apply (base_wf n tb WF (TApp c args)); auto. cbn. now rewrite S. }
    specialize (IH W2 eq_refl). injection IH as E _. apply (NF c C). unfold superclass. rewrite S. cbn. now rewrite E.
  Qed.
  Lemma null_class u : wft u -> (sub (typeof I (null I)) (denote I u) <-> below tb (TApp none_id []) u).
  Proof.
    intros W. split.
    - intros H. destruct (below_dec n tb WF (TApp none_id []) u wf_none_t) as [B|B]; [exact B|exfalso].
      assert (~ below tb u (TApp none_id [])) as B2.
      { intros K. apply below_none in K; auto. subst. apply B. constructor. }
      destruct (branch n tb WF _ _ wf_none_t W B B2) as (s & s' & p & S1 & S2 & E1 & E2 & NE).
      destruct (below_wf n tb WF _ _ wf_none_t S1) as (W1 & _). destruct (below_wf n tb WF _ _ W S2) as (W2 & _).
      pose proof (base_extends n tb WF I AX _ _ W1 E1) as X1. pose proof (base_extends n tb WF I AX _ _ W2 E2) as X2.
      destruct AX as (_ & _ & _ & _ & _ & _ & _ & ex & _ & pr & _).
      pose proof (ex _ _ _ (andb_true_intro (conj X1 X2)) (distinct n tb WF I AX _ _ W1 W2 NE)) as P.
      apply andb_prop in P as [P _].
      assert (sub (typeof I (null I)) (denote I s)) as K1.
      { eapply trans_; [apply null_below|]. apply (subtype_iff n tb WF I AX); auto using wf_none_t. }
      assert (sub (typeof I (null I)) (denote I s')) as K2.
      { eapply trans_; [exact H|]. apply (subtype_iff n tb WF I AX); auto. }
      pose proof (pr (typeof I (null I)) (denote I s) (denote I s')) as Q. rewrite K1, P, K2 in Q. discriminate (Q eq_refl).
    - intros H. eapply trans_; [apply null_below|]. apply (subtype_iff n tb WF I AX); auto using wf_none_t.
  Qed.

  (** ** Lists of types *)
  Lemma member_all vs l :
    (fix all (vs : list val) (l : list ann) {struct l} : Prop :=
       match vs, l with
       | [], [] => True
       | v :: vs, a :: l => member tb v a /\ all vs l
       | _, _ => False
       end) vs l <-> Forall2 (member tb) vs l.
  Proof.
    revert vs. induction l as [|a l IH]; intros [|v vs]; split; try (intros H; inversion H; fail); try contradiction; auto.
    - intros [H1 H2]. constructor; auto. now apply IH.
    - intros H. inversion H; subst. split; auto. now apply IH.
  Qed.
  Lemma member_any v l :
    (fix any (l : list ann) : Prop := match l with [] => False | a :: l => member tb v a \/ any l end) l <-> Exists (member tb v) l.
  Proof.
    induction l as [|a l IH]; split.
    - contradiction.
    - intros H. inversion H.
    - intros [H|H]; [now left|right; now apply IH].
    - intros H. inversion H; subst; [now left|right; now apply IH].
  Qed.
  Lemma literals_forall l xs :
    (fix literals (l : list ann) : option (list (PyType I)) :=
      match l with
      | [] => Some []
      | a :: l => match literal tb I T a, literals l with Some x, Some xs => Some (x :: xs) | _, _ => None end
      end) l = Some xs <-> Forall2 (fun a x => literal tb I T a = Some x) l xs.
  Proof.
    revert xs. induction l as [|a l IH]; intros xs; split.
    - intros [= <-]. constructor.
    - intros H. inversion H. reflexivity.
    - intros H. destruct (literal tb I T a) as [x|] eqn:E; [|discriminate].
      destruct ((fix literals (l : list ann) : option (list (PyType I)) := _) l) as [ys|] eqn:F; [|discriminate].
      injection H as <-. constructor; auto. now apply IH.
    - intros H. inversion H as [|? x ? ys E F]; subst. apply IH in F. rewrite E, F. reflexivity.
  Qed.
  Lemma fold_or_ {A} (f : A -> bool) l b : fold_left (fun acc a => acc || f a) l b = b || existsb f l.
  Proof. revert b. induction l as [|x l IH]; intros b; cbn; [now rewrite orb_false_r|]. now rewrite IH, orb_assoc. Qed.

  (** ** Values *)
  Lemma not_object r v : good_val n tb v -> stands_for I T r v -> typeof I r <> object_t I.
  Proof.
    intros G S E. destruct S as [r t D| |r rs vs N D _ _].
    - inversion G as [c l W N1 N2| |]; subst. rewrite D in E.
      apply (distinct n tb WF I AX (TApp c l) (TApp object_id [])); auto.
      + apply wft_object. exact WF.
      + congruence.
    - assert (sub (denote I (TApp object_id [])) (denote I (TApp none_id []))) as K.
      { change (denote I (TApp object_id [])) with (object_t I). rewrite <- E. apply null_below. }
      apply (subtype_iff n tb WF I AX) in K; [|apply wft_object; exact WF|apply wf_none_t].
      apply below_none in K; [discriminate|apply wft_object; exact WF|reflexivity].
    - destruct (class_not_tuple (denote I (TApp none_id [])) none_id [] wf_none_t ltac:(discriminate) (refl_ _)) as [K _].
      apply (K (map (typeof I) rs)). rewrite <- D, E. apply object_.
  Qed.

  Hypothesis WU : ax_union_subtype_weak I.
  Lemma union_check r v xs : good_val n tb v -> stands_for I T r v -> 1 <= length xs <= 4 ->
    (sub (typeof I r) (union_type I xs) <-> Exists (fun x => sub (typeof I r) x) xs).
  Proof.
    intros G S L. rewrite WU; [|exact L| |eapply not_object; eauto].
    - rewrite fold_or_, orb_false_l, existsb_exists, Exists_exists. reflexivity.
    - destruct AX as (_ & _ & _ & _ & _ & nu & _). apply nu.
  Qed.
  Lemma nonnull_none r : sub (typeof I r) (cls_type I none_id []) <-> r = null I.
  Proof. destruct AX as (_ & _ & _ & _ & nt & _). apply nt. Qed.
  Lemma none_exact r v : good_val n tb v -> stands_for I T r v -> (r = null I <-> v = VNone).
  Proof.
    intros G S. destruct S as [r t D| |r rs vs N D _ _].
    - split; [|discriminate]. intros ->. exfalso. inversion G as [c l W N1 N2| |]; subst.
      pose proof null_below as K. rewrite D in K. apply (subtype_iff n tb WF I AX) in K; auto using wf_none_t.
      apply below_none in K; auto. congruence.
    - split; reflexivity.
    - split; [contradiction|discriminate].
  Qed.
  Lemma tuple_exact seq1 seq2 :
    (forall i x, nth_error seq1 i = Some x -> sub x (tuple_arg T (tuple T seq1) (Z.of_nat i))) ->
    (sub (tuple T seq1) (tuple T seq2) <-> Forall2 (fun x y => sub x y) seq1 seq2).
  Proof.
    intros G. destruct CA as (_ & ad & ln & ss & _). split.
    - intros H. assert (length seq1 = length seq2) as L.
      { rewrite <- (ln seq1 (tuple T seq1)) by apply refl_. now apply ln. }
      assert (forall i x y, nth_error seq1 i = Some x -> nth_error seq2 i = Some y -> sub x y) as K.
      { intros i x y E1 E2. eapply trans_; [apply G; exact E1|]. rewrite <- (at_nat _ _ _ E2). now apply ad. }
      clear -L K. revert seq2 L K. induction seq1 as [|x s IH]; intros [|y s2] L K; try discriminate; constructor.
      + apply (K 0); reflexivity.
      + apply IH; [injection L; auto|]. intros i a b. apply (K (S i)).
    - intros H.
      assert (length seq1 = length seq2) as L by (eapply forall2_length; exact H).
      assert (seq1 = seq2 \/ seq1 <> seq2 -> sub (tuple T seq1) (tuple T seq2)) as C.
      { intros [->|N]; [apply refl_|]. apply ss; auto. intros i R.
        apply in_range_nth in R as (k & x & -> & E). rewrite (at_nat _ _ _ E).
        destruct (nth_error seq2 k) as [y|] eqn:E2.
        - rewrite (at_nat _ _ _ E2). clear -H E E2. revert k E E2. induction H; intros [|k] E E2; try discriminate.
          + injection E as <-. injection E2 as <-. assumption.
          + cbn [nth_error] in E, E2. eauto.
        - apply nth_error_None in E2. assert (k < length seq1) by (apply nth_error_Some; congruence). lia. }
      destruct (subtype I (tuple T seq1) (tuple T seq2)) eqn:E; [reflexivity|].
      exfalso. assert (~ seq1 <> seq2) as N by (intros N; discriminate (C (or_intror N))).
      apply N. intros K. discriminate (C (or_introl K)).
  Qed.

  Lemma check_exact a : forall r v x, good_ann n tb a -> good_val n tb v -> stands_for I T r v ->
    literal tb I T a = Some x -> (sub (typeof I r) x <-> member tb v a).
  Proof.
    induction a as [t| |l IH|a IH|l IH|a IH] using ann_ind'; intros r v x GA GV SF E.
    - injection E as <-. inversion GA as [t' W| | | | |]; subst. cbn [member].
      destruct SF as [r t0 D| |r rs vs N D _ _].
      + inversion GV as [c l W0 N1 N2| |]; subst. rewrite D. apply (subtype_iff n tb WF I AX); auto.
      + now apply null_class.
      + split.
        * intros H. destruct t as [i|c l]; [inversion W; lia|]. destruct (Nat.eq_dec c 0) as [->|NZ].
          -- inversion W; subst. destruct (wf_object _ _ WF) as [_ V]. unfold object_id in *. rewrite V in *.
             destruct l; [reflexivity|discriminate].
          -- exfalso. destruct (class_not_tuple _ c l W NZ H) as [K _]. apply (K (map (typeof I) rs)). rewrite D. apply refl_.
        * intros ->. apply object_.
    - injection E as <-. cbn [member]. rewrite nonnull_none. eapply none_exact; eauto.
    - cbn [literal] in E. destruct ((fix literals (l : list ann) : option (list (PyType I)) := _) l) as [xs|] eqn:F; [|discriminate].
      injection E as <-. apply literals_forall in F. inversion GA as [| |l' GL| | |]; subst. cbn [member].
      destruct SF as [r t0 D| |r rs vs N D G FS].
      + split; [|contradiction]. intros H. inversion GV as [c k W0 N1 N2| |]; subst.
        destruct (class_not_tuple (typeof I r) c k W0 N1) as [K _]; [rewrite D; apply refl_|]. exact (K _ H).
      + split; [|contradiction]. intros H. destruct (class_not_tuple (typeof I (null I)) none_id [] wf_none_t ltac:(discriminate) null_below) as [K _]. exact (K _ H).
      + rewrite member_all, D. rewrite tuple_exact.
        2:{ intros i y Ei. rewrite nth_error_map in Ei. destruct (nth_error rs i) as [x0|] eqn:E0; [|discriminate].
            injection Ei as <-. rewrite <- D. now apply G. }
        inversion GV as [| |vs' GVS]; subst. clear -IH F GL FS GVS.
        revert vs l xs IH F GL FS GVS. induction rs as [|r rs IHr]; intros vs l xs IH F GL FS GVS.
        * inversion FS; subst. split; intros H; inversion H; subst; inversion F; subst; constructor.
        * inversion FS as [|? v ? vs0 S1 S2]; subst. pose proof (Forall_inv GVS) as GV1. pose proof (Forall_inv_tail GVS) as GV2.
          split; intros H.
          -- inversion H as [|? y ? ys K1 K2]; subst. inversion F as [|a ? l0 ? F1 F2]; subst.
             pose proof (Forall_inv IH) as I1. pose proof (Forall_inv_tail IH) as I2.
             pose proof (Forall_inv GL) as G1. pose proof (Forall_inv_tail GL) as G2.
             constructor; [eapply I1; eauto|]. eapply IHr; eauto.
          -- inversion H as [|? a ? l0 K1 K2]; subst. inversion F as [|? y ? ys F1 F2]; subst.
             pose proof (Forall_inv IH) as I1. pose proof (Forall_inv_tail IH) as I2.
             pose proof (Forall_inv GL) as G1. pose proof (Forall_inv_tail GL) as G2.
             cbn [map]. constructor; [eapply I1; eauto|]. eapply IHr; eauto.
    - cbn [literal] in E. destruct (literal tb I T a) as [y|] eqn:F; [|discriminate]. injection E as <-.
      inversion GA as [| | |a' GA'| |]; subst. cbn [member].
      destruct SF as [r t0 D| |r rs vs N D G FS].
      + split; [|contradiction]. intros H. inversion GV as [c k W0 N1 N2| |]; subst.
        destruct (class_not_tuple (typeof I r) c k W0 N1) as [_ K]; [rewrite D; apply refl_|]. exact (K _ H).
      + split; [|contradiction]. intros H. destruct (class_not_tuple (typeof I (null I)) none_id [] wf_none_t ltac:(discriminate) null_below) as [_ K]. exact (K _ H).
      + rewrite D. pose proof CA as (_ & _ & _ & _ & _ & _ & _ & vt & _). rewrite (vt y), (range_all (fun z => sub z y)).
        inversion GV as [| |vs' GVS]; subst. rewrite Forall_map. clear -IH GA' FS GVS F.
        induction FS as [|r v rs vs S1 S2 IHf]; [split; constructor|]. inversion GVS; subst.
        split; intros H; inversion H; subst; constructor; try (eapply IH; eauto); now apply IHf.
    - cbn [literal] in E. destruct ((fix literals (l : list ann) : option (list (PyType I)) := _) l) as [xs|] eqn:F; [|discriminate].
      unfold union_literal in E. destruct (is_tuple tb (AUnion l)); [discriminate|].
      destruct (length xs <=? 4) eqn:L; [|discriminate]. injection E as <-. apply Nat.leb_le in L.
      apply literals_forall in F. inversion GA as [| | | |l' NE GL|]; subst. cbn [member].
      assert (length l = length xs) as LL by (eapply forall2_length; exact F).
      assert (1 <= length xs <= 4) as LX by (rewrite <- LL in *; destruct l; [congruence|cbn [length] in *; lia]).
      rewrite (union_check r v xs GV SF LX).
      rewrite member_any. clear NE L LL LX. revert F. clear GA. revert GL IH. revert xs.
      induction l as [|a l IHl]; intros xs GL IH F; inversion F; subst.
      + split; intros H; inversion H.
      + pose proof (Forall_inv IH) as I1. pose proof (Forall_inv_tail IH) as I2.
        pose proof (Forall_inv GL) as G1. pose proof (Forall_inv_tail GL) as G2.
        rewrite !Exists_cons, (I1 r v y), (IHl l' G2 I2) by auto. reflexivity.
    - cbn [literal] in E. destruct (literal tb I T a) as [y|] eqn:F; [|discriminate].
      unfold union_literal in E. destruct (is_tuple tb a); [discriminate|]. cbn [length Nat.leb] in E. injection E as <-.
      inversion GA as [| | | | |a' GA']; subst. cbn [member].
      rewrite (union_check r v) by (auto; cbn; lia). rewrite !Exists_cons, Exists_nil, nonnull_none.
      rewrite (none_exact r v), (IH r v y) by auto. tauto.
  Qed.

  Lemma type_check_exact a r v P : good_ann n tb a -> good_val n tb v -> stands_for I T r v ->
    type_check tb I T r a = Some P -> (P <-> member tb v a).
  Proof.
    intros GA GV SF E. destruct a as [t| |l|a|l|a]; unfold type_check in E;
      try (match type of E with option_map _ ?L = _ => destruct L as [x|] eqn:F; [|discriminate] end; injection E as <-;
           eapply check_exact; eauto; fail).
    destruct (literal tb I T a) as [x|] eqn:F; [|discriminate]. injection E as <-.
    inversion GA; subst. cbn [member]. rewrite (none_exact r v), (check_exact a r v x) by auto. reflexivity.
  Qed.
End Facts.

(** Which annotations can be written as types in Viper. *)
Section Literals.
  Context (n : nat) (tb : table) (WF : wf_table n tb).
  Context (I : interp) (T : tuples I).
  Definition class_ok (o : option pclass) : Prop := match o with Some (PClass c) => c < n | _ => True end.
  Lemma common_ok c d : c < n -> d < n -> exists e, common tb (PClass c) (PClass d) = Some (PClass e) /\ e < n.
  Proof.
    intros C D. destruct (common_spec n tb WF c d C D) as (a & E & L & _). exists a. unfold common. rewrite E. split; [reflexivity|].
    assert (inherits tb c a) as H by (apply L; cbn; auto). pose proof (inherits_le n tb WF _ _ C H). lia.
  Qed.
  Definition next (acc : option pclass) (a : ann) : option pclass :=
    match python_class tb a, acc with None, _ => acc | Some c, None => Some c | Some c, Some d => common tb d c end.
  Lemma zero_lt : 0 < n.
  Proof. pose proof (wf_two _ _ WF). lia. Qed.
  Lemma next_ok acc a : class_ok (python_class tb a) -> class_ok acc -> class_ok (next acc a).
  Proof.
    unfold next. destruct (python_class tb a) as [[|c]|], acc as [[|d]|]; cbn [class_ok common]; intros A B; auto; try exact zero_lt.
    destruct (common_ok d c B A) as (e & E & L). unfold common in E. rewrite E. exact L.
  Qed.
  Lemma next_class acc a c : acc = Some (PClass c) -> c < n -> class_ok (python_class tb a) ->
    exists d, next acc a = Some (PClass d) /\ d < n.
  Proof.
    intros -> C A. unfold next. destruct (python_class tb a) as [[|d]|]; cbn [class_ok] in A.
    - exists 0. cbn. split; [reflexivity|exact zero_lt].
    - apply common_ok; auto.
    - exists c. auto.
  Qed.
  Lemma next_plain acc a c : class_ok acc -> python_class tb a = Some (PClass c) -> c < n ->
    exists d, next acc a = Some (PClass d) /\ d < n.
  Proof.
    intros A E C. unfold next. rewrite E. destruct acc as [[|d]|]; cbn [class_ok] in A.
    - exists 0. cbn. split; [reflexivity|exact zero_lt].
    - apply common_ok; auto.
    - exists c. auto.
  Qed.
  Lemma fold_ok l : Forall (fun a => class_ok (python_class tb a)) l -> forall acc, class_ok acc -> class_ok (fold_left next l acc).
  Proof. intros F. induction F; intros acc A; cbn [fold_left]; auto. apply IHF. now apply next_ok. Qed.
  Lemma fold_class l : Forall (fun a => class_ok (python_class tb a)) l -> forall c, c < n ->
    exists d, fold_left next l (Some (PClass c)) = Some (PClass d).
  Proof.
    intros F. induction F as [|a l A F IH]; intros c C; cbn [fold_left]; [eauto|].
    destruct (next_class _ a c eq_refl C A) as (d & -> & D). now apply IH.
  Qed.
  Lemma python_class_union l : python_class tb (AUnion l) = fold_left next l None.
  Proof. reflexivity. Qed.
  Lemma python_class_ok a : good_ann n tb a -> class_ok (python_class tb a).
  Proof.
    induction a as [t| |l IH|a IH|l IH|a IH] using ann_ind'; intros G; inversion G; subst; try exact Logic.I.
    - destruct t as [i|c l]; cbn; [exact Logic.I|]. match goal with H : wf_texpr _ _ _ _ |- _ => inversion H; auto end.
    - rewrite python_class_union. apply fold_ok; [|exact Logic.I]. apply Forall_forall. intros x Hx.
      rewrite Forall_forall in *. auto.
    - cbn. auto.
  Qed.
  Lemma plain_class a : good_ann n tb a -> plain a -> exists c, python_class tb a = Some (PClass c).
  Proof.
    induction a as [t| |l IH|a IH|l IH|a IH] using ann_ind'; intros G P; inversion P; subst; inversion G; subst.
    - match goal with H : wf_texpr _ _ _ _ |- _ => inversion H; subst end; [lia|]. cbn. eauto.
    - rewrite python_class_union. match goal with H : In ?x l |- _ => apply in_split in H as (l1 & l2 & ->); rename x into a end.
      rewrite Forall_forall in *.
      assert (good_ann n tb a) as GA by (match goal with H : forall _, _ -> good_ann _ _ _ |- _ => apply H end; apply in_elt).
      destruct (IH a (in_elt _ _ _) GA) as (c & E); auto.
      pose proof (python_class_ok a GA) as K. rewrite E in K. cbn in K.
      assert (Forall (fun a => class_ok (python_class tb a)) l1) as F1.
      { apply Forall_forall. intros x Hx. apply python_class_ok.
        match goal with H : forall _, _ -> good_ann _ _ _ |- _ => apply H end. apply in_or_app; auto. }
      assert (Forall (fun a => class_ok (python_class tb a)) l2) as F2.
      { apply Forall_forall. intros x Hx. apply python_class_ok.
        match goal with H : forall _, _ -> good_ann _ _ _ |- _ => apply H end. apply in_or_app; cbn; auto. }
      rewrite fold_left_app. cbn [fold_left].
      destruct (next_plain (fold_left next l1 None) a c (fold_ok l1 F1 None Logic.I) E K) as (d & -> & D).
      now apply fold_class.
    - cbn. auto.
  Qed.
  Lemma plain_not_tuple a : good_ann n tb a -> plain a -> is_tuple tb a = false.
  Proof. intros G P. unfold is_tuple. destruct (plain_class a G P) as (c & ->). reflexivity. Qed.

  Definition literals (l : list ann) : option (list (PyType I)) :=
    (fix go (l : list ann) : option (list (PyType I)) :=
      match l with
      | [] => Some []
      | a :: l => match literal tb I T a, go l with Some x, Some xs => Some (x :: xs) | _, _ => None end
      end) l.
  Lemma literals_some l : Forall (fun a => exists x, literal tb I T a = Some x) l ->
    exists xs, literals l = Some xs /\ length xs = length l.
  Proof.
    intros F. induction F as [|a l (x & E) F (xs & E2 & L)]; [exists []; auto|].
    exists (x :: xs). cbn [literals]. rewrite E. fold (literals l). rewrite E2. cbn. auto.
  Qed.
  Lemma literal_some a : good_ann n tb a -> expressible a -> exists x, literal tb I T a = Some x.
  Proof.
    induction a as [t| |l IH|a IH|l IH|a IH] using ann_ind'; intros G X; inversion X; subst; inversion G; subst; cbn [literal]; eauto.
    - destruct (literals_some l) as (xs & E & _). { rewrite Forall_forall in *. auto. }
      unfold literals in E. rewrite E. cbn. eauto.
    - destruct IH as (x & ->); auto. cbn. eauto.
    - destruct (literals_some l) as (xs & E & L). { rewrite Forall_forall in *. auto. }
      unfold literals in E. rewrite E. rewrite plain_not_tuple by auto. unfold union_literal.
      replace (length xs <=? 4) with true by (symmetry; apply Nat.leb_le; lia). eauto.
    - destruct IH as (x & ->); auto. rewrite plain_not_tuple by auto. cbn. eauto.
  Qed.
  (** The annotation itself may be Optional of a tuple type. *)
  Lemma type_check_some r a : good_ann n tb a -> (expressible a \/ exists b, a = AOpt b /\ expressible b) ->
    exists P, type_check tb I T r a = Some P.
  Proof.
    intros G [X|(b & -> & X)].
    - destruct a as [t| |l|a|l|a]; unfold type_check;
        try (destruct (literal_some _ G X) as (x & E); rewrite E; cbn; eauto; fail).
      inversion X; subst. inversion G; subst. destruct (literal_some a) as (x & E); auto. rewrite E. cbn. eauto.
    - inversion G; subst. destruct (literal_some b) as (x & E); auto. unfold type_check. rewrite E. cbn. eauto.
  Qed.
End Literals.

Lemma starred_exact t m k : starred t = Some m -> may_have t k -> m = k.
Proof. destruct t as [i|c|args []]; cbn; congruence. Qed.
Lemma starred_member types t m k : (exists args, t = GTuple args true) \/ contains_type_var t = false ->
  may_have t k -> starred (member_type types t) = Some m -> m = k.
Proof.
  unfold member_type. intros [(args & ->)|E] H S.
  - cbn in H. subst k. destruct (contains_type_var _); cbn [starred substitute] in S; [rewrite map_length in S|]; congruence.
  - rewrite E in S. eapply starred_exact; eauto.
Qed.
Lemma type_check_weak n tb I T : wf_table n tb -> none_final n tb -> weak_axioms I T n tb ->
  forall a r v P, good_ann n tb a -> good_val n tb v -> stands_for I T r v ->
  type_check tb I T r a = Some P -> (P <-> member tb v a).
Proof. intros W NF (AX & CA & _ & _ & WU) a r v P. now apply (type_check_exact n tb W I T AX CA NF WU). Qed.
