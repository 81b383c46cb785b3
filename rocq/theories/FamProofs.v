(** Proofs about predicate families. *)
From Coq Require Import Bool Arith List NArith Lia Permutation.
From Verif Require Import ClsModel ClsSpec ClsProofs UnitModel UnitSpec UnitProofs FamModel FamSpec.
Import ListNotations.
Local Open Scope nat_scope.

(** toposort_f on dependencies that point to smaller numbers. *)
Lemma topo_split {A} (a b x y : list A) c : a ++ b = x ++ c :: y ->
  (exists z, a = x ++ c :: z) \/ (exists z, x = a ++ z /\ b = z ++ c :: y).
Proof.
  revert x. induction a as [|h a IH]; intros x H; cbn in H.
  - right. exists x. auto.
  - destruct x as [|x0 x]; cbn in H; injection H as -> H.
    + left. exists a. auto.
    + destruct (IH _ H) as [(z & ->)|(z & -> & ->)]; [left|right]; exists z; auto.
Qed.
Lemma min_exists (l : list nat) : l <> [] -> exists m, In m l /\ forall x, In x l -> m <= x.
Proof.
  induction l as [|a l IH]; [congruence|]. intros _. destruct l as [|b l].
  - exists a. split; [now left|]. intros x [<-|[]]. auto.
  - destruct IH as (m & M1 & M2); [discriminate|]. destruct (le_lt_dec m a).
    + exists m. split; [now right|]. intros x [<-|H]; auto.
    + exists a. split; [now left|]. intros x [<-|H]; auto. specialize (M2 _ H). lia.
Qed.

Section Topo.
Variable deps : cid -> list cid.
Hypothesis D : forall c d, In d (deps c) -> d < c.
Let blk (rest : list cid) (c : cid) : bool := existsb (fun d => negb (d =? c) && mem d rest) (deps c).
Lemma blk_spec rest c : blk rest c = true <-> exists d, In d (deps c) /\ In d rest.
Proof.
  unfold blk. rewrite existsb_exists. split.
  - intros [d [H1 H2]]. apply andb_prop in H2. destruct H2 as [_ H2]. apply mem_In in H2. eauto.
  - intros [d [H1 H2]]. exists d. split; [exact H1|]. apply andb_true_intro. split; [|apply mem_In; exact H2].
    specialize (D _ _ H1). destruct (Nat.eqb_spec d c); [lia | reflexivity].
Qed.
Lemma topo_spec fuel rest : length rest <= fuel ->
  exists o, toposort_f fuel deps rest = Some o /\ Permutation rest o /\
    (forall l1 c l2 d, o = l1 ++ c :: l2 -> In d (deps c) -> In d rest -> In d l1).
Proof.
  revert rest. induction fuel as [|f IH]; intros rest F.
  - destruct rest; [|cbn in F; lia]. exists []. split; auto. split; auto. intros ? ? ? ? _ _ [].
  - destruct rest as [|r0 rest0]. { exists []. split; auto. split; auto. intros ? ? ? ? _ _ []. }
    remember (r0 :: rest0) as rest eqn:R.
    assert (toposort_f (S f) deps rest =
      match filter (fun c => negb (blk rest c)) rest with
      | [] => None
      | _ => option_map (app (filter (fun c => negb (blk rest c)) rest)) (toposort_f f deps (filter (blk rest) rest))
      end) as ->.
    { rewrite R. reflexivity. }
    destruct (min_exists rest) as (m & M1 & M2). { rewrite R. discriminate. }
    assert (blk rest m = false) as BM.
    { destruct (blk rest m) eqn:E; auto. apply blk_spec in E. destruct E as (d & D1 & D2).
      specialize (D _ _ D1). specialize (M2 _ D2). lia. }
    assert (In m (filter (fun c => negb (blk rest c)) rest)) as MI.
    { apply filter_In. rewrite BM. auto. }
    pose proof (filter_perm (blk rest) rest) as PERM.
    destruct (IH (filter (blk rest) rest)) as (o & E & P1 & P2).
    { apply Permutation_length in PERM. rewrite app_length in PERM.
      destruct (filter (fun c => negb (blk rest c)) rest); [destruct MI|]. cbn in PERM. lia. }
    rewrite E. exists (filter (fun c => negb (blk rest c)) rest ++ o).
    split. { destruct (filter (fun c => negb (blk rest c)) rest); [destruct MI|reflexivity]. }
    split. { rewrite PERM at 1. apply Permutation_app_head. exact P1. }
    intros l1 c l2 d EQ D1 D2.
    destruct (topo_split _ _ _ _ _ EQ) as [(z & EA)|(z & -> & EB)].
    + exfalso. assert (In c (filter (fun c => negb (blk rest c)) rest)) as IC.
      { rewrite EA. apply in_or_app. right. now left. }
      apply filter_In in IC as [_ IC2]. apply negb_true_iff in IC2.
      assert (blk rest c = true) as K by (apply blk_spec; eauto). congruence.
    + apply in_or_app. destruct (blk rest d) eqn:BD.
      * right. eapply P2; eauto. apply filter_In. auto.
      * left. apply filter_In. rewrite BD. auto.
Qed.
End Topo.

Section Fam.
Variable n : nat.
Variable P : prog.
Hypothesis W : wf_prog n P.
Variable x : nat.
Notation tb := (p_tb P).
Local Lemma WT : wf_table n tb. Proof. apply W. Qed.

Lemma get_predicate_f_spec fuel c d : c < n -> c < fuel -> (get_predicate_f fuel P c x = Some d <-> nearest tb (has_pred P x) c d).
Proof.
  revert c. induction fuel as [|f IH]; intros c Hc Hf; [lia|]. cbn.
  destruct (mem x (p_preds P c)) eqn:M.
  - apply mem_In in M. change (has_pred P x c) in M. split.
    + intros H; injection H as <-. apply nearest_here. exact M.
    + intros H. f_equal. eapply (nearest_unique n tb WT); [exact Hc | apply nearest_here; exact M | exact H].
  - apply mem_not in M. destruct (superclass tb c) as [p|] eqn:Hsup.
    + assert (p < c) by (eapply (super_lt n tb WT); eauto). rewrite IH by lia. symmetry. apply nearest_up; [exact Hsup | exact M].
    + split; [discriminate|]. intros H. exfalso. eapply (nearest_top tb (has_pred P x)); [exact Hsup | exact M | exact H].
Qed.
Lemma get_predicate_spec c d : c < n -> (get_predicate P c x = Some d <-> nearest tb (has_pred P x) c d).
Proof. intros H. apply get_predicate_f_spec; auto. Qed.
Lemma get_predicate_f_none fuel c : c < n -> c < fuel -> get_predicate_f fuel P c x = None -> forall e, inherits tb c e -> ~ has_pred P x e.
Proof.
  revert c. induction fuel as [|f IH]; intros c Hc Hf; [lia|]. cbn.
  destruct (mem x (p_preds P c)) eqn:M; [discriminate|]. apply mem_not in M.
  destruct (superclass tb c) as [p|] eqn:Hsup; intros H e He.
  - assert (p < c) by (eapply (super_lt n tb WT); eauto). inversion He as [|? q ? Hq He']; subst; [exact M|].
    replace q with p in He' by congruence. revert e He' He. intros e He' _. apply IH with (c := p); auto; lia.
  - inversion He as [|? q ? Hq He']; subst; [exact M | congruence].
Qed.
Lemma get_predicate_none c : c < n -> get_predicate P c x = None -> forall e, inherits tb c e -> ~ has_pred P x e.
Proof. intros H. apply get_predicate_f_none; auto. Qed.

Lemma topmost_unique c r s : c < n -> topmost P x c r -> topmost P x c s -> r = s.
Proof.
  intros Hc (A1 & A2 & A3) (B1 & B2 & B3).
  assert (r < n) by (pose proof (inherits_le n tb WT c r Hc A1); lia).
  assert (s < n) by (pose proof (inherits_le n tb WT c s Hc B1); lia).
  apply (inherits_antisym n tb WT); auto.
Qed.

(** Climbing ends at the topmost class. *)
Lemma climb_spec fuel c : c < n -> c <= fuel -> (exists e, inherits tb c e /\ has_pred P x e) ->
  topmost P x c (climb_f fuel P c x).
Proof.
  revert c. induction fuel as [|f IH]; intros c Hc Hf [e [He Hx]]; cbn [climb_f].
  - assert (c = 0) as -> by lia.
    assert (e = 0) as -> by (pose proof (inherits_le n tb WT 0 e Hc He); lia).
    split; [constructor|]. split; [exact Hx|]. intros g Hg _.
    assert (g = 0) as -> by (pose proof (inherits_le n tb WT 0 g Hc Hg); lia). constructor.
  - destruct (superclass tb c) as [p|] eqn:Hsup.
    + assert (p < c) by (eapply (super_lt n tb WT); eauto). destruct (get_predicate P p x) as [d|] eqn:G.
      * apply get_predicate_spec in G; [|lia]. destruct G as (G1 & G2 & G3).
        assert (T : topmost P x p (climb_f f P p x)).
        { apply IH; try lia. exists d. auto. }
        destruct T as (T1 & T2 & T3).
        split; [eapply inh_step; eauto|]. split; [exact T2|].
        intros g Hg Hgx. inversion Hg as [|? q ? Hq Hg']; subst.
        -- eapply inh_step; eauto.
        -- replace q with p in Hg' by congruence. auto.
      * assert (N : forall e, inherits tb p e -> ~ has_pred P x e) by (apply get_predicate_none; [lia | exact G]).
        assert (e = c) as ->.
        { inversion He as [|? q ? Hq He']; subst; [reflexivity|]. replace q with p in He' by congruence. exfalso. eapply N; eauto. }
        split; [constructor|]. split; [exact Hx|].
        intros g Hg Hgx. inversion Hg as [|? q ? Hq Hg']; subst; [constructor|].
        replace q with p in Hg' by congruence. exfalso. eapply N; eauto.
    + assert (e = c) as -> by (inversion He; [reflexivity | congruence]).
      split; [constructor|]. split; [exact Hx|].
      intros g Hg _. inversion Hg; [constructor | congruence].
Qed.
Lemma climb_topmost c : c < n -> (exists e, inherits tb c e /\ has_pred P x e) -> topmost P x c (climb_f c P c x).
Proof. intros Hc He. apply climb_spec; auto. Qed.

Lemma get_predicate_here r : has_pred P x r -> get_predicate P r x = Some r.
Proof. intros H. apply mem_In in H. unfold get_predicate. cbn. rewrite H. reflexivity. Qed.

Lemma used_call_spec c r : c < n -> (used_in_call P c x = Some r <-> topmost P x c r).
Proof.
  intros Hc. unfold used_in_call. split.
  - intros H. destruct (get_predicate P c x) as [d|] eqn:G.
    + apply get_predicate_spec in G; [|exact Hc].
      assert (T : topmost P x c (climb_f c P c x)) by (apply climb_topmost; [exact Hc | exists d; split; [exact (proj1 G) | exact (proj1 (proj2 G))]]).
      rewrite get_predicate_here in H by apply T. injection H as <-. exact T.
    + assert (N := get_predicate_none c Hc G). exfalso.
      assert (K : climb_f c P c x = c).
      { destruct c as [|k]; [reflexivity|]. cbn [climb_f]. destruct (superclass tb (S k)) as [p|] eqn:Hsup; [|reflexivity].
        destruct (get_predicate P p x) as [d|] eqn:G'; [|reflexivity].
        assert (p < S k) by (eapply (super_lt n tb WT); eauto). apply get_predicate_spec in G'; [|lia].
        exfalso. destruct G' as (G1 & G2 & _). exact (N d (inh_step tb _ p d Hsup G1) G2). }
      rewrite K, G in H. discriminate.
  - intros T. assert (T' : topmost P x c (climb_f c P c x)) by (apply climb_topmost; [exact Hc | exists r; split; [exact (proj1 T) | exact (proj1 (proj2 T))]]).
    rewrite (topmost_unique c _ _ Hc T' T). apply get_predicate_here. apply T.
Qed.
Lemma topmost_nearest c d r : nearest tb (has_pred P x) c d -> (topmost P x d r <-> topmost P x c r).
Proof.
  intros (N1 & N2 & N3). split; intros (T1 & T2 & T3).
  - split; [exact (inherits_trans tb c d r N1 T1)|]. split; [exact T2|]. intros e He Hx. apply T3; auto.
  - split; [apply N3; auto|]. split; [exact T2|]. intros e He Hx. apply T3; [exact (inherits_trans tb c d e N1 He) | exact Hx].
Qed.
Lemma used_acc_spec c r : c < n -> (used_in_acc P c x = Some r <-> topmost P x c r).
Proof.
  intros Hc. unfold used_in_acc. destruct (get_predicate P c x) as [d|] eqn:G.
  - apply get_predicate_spec in G; [|exact Hc].
    assert (d < n) by (pose proof (inherits_le n tb WT c d Hc (proj1 G)); lia).
    rewrite <- (topmost_nearest c d r G), <- (used_call_spec d r) by assumption. reflexivity.
  - split; [discriminate|]. intros (T1 & T2 & _). exfalso. exact (get_predicate_none c Hc G r T1 T2).
Qed.

(** Both ways to refer to the predicate agree, for all static types of one object. *)
Lemma one_predicate c d t : t < n -> inherits tb t c -> inherits tb t d ->
  (exists e, inherits tb c e /\ has_pred P x e) -> (exists e, inherits tb d e /\ has_pred P x e) ->
  exists r, used_in_acc P c x = Some r /\ used_in_acc P d x = Some r /\ used_in_call P c x = Some r /\ used_in_call P d x = Some r.
Proof.
  intros Ht Hc Hd Ec Ed.
  assert (c < n) by (pose proof (inherits_le n tb WT t c Ht Hc); lia).
  assert (d < n) by (pose proof (inherits_le n tb WT t d Ht Hd); lia).
  assert (T1 := climb_topmost c ltac:(assumption) Ec). assert (T2 := climb_topmost d ltac:(assumption) Ed).
  assert (E : climb_f c P c x = climb_f d P d x).
  { apply (topmost_unique t); [exact Ht | |];
      destruct T1 as (A1 & A2 & A3), T2 as (B1 & B2 & B3).
    - split; [exact (inherits_trans tb t c _ Hc A1)|]. split; [exact A2|]. intros e He Hx.
      destruct (inherits_linear tb t c e Hc He) as [H1|H1]; [auto | exact (inherits_trans tb e c _ H1 A1)].
    - split; [exact (inherits_trans tb t d _ Hd B1)|]. split; [exact B2|]. intros e He Hx.
      destruct (inherits_linear tb t d e Hd He) as [H1|H1]; [auto | exact (inherits_trans tb e d _ H1 B1)]. }
  exists (climb_f c P c x). repeat split.
  - apply used_acc_spec; assumption.
  - apply used_acc_spec; [assumption|]. rewrite E. exact T2.
  - apply used_call_spec; assumption.
  - apply used_call_spec; [assumption|]. rewrite E. exact T2.
Qed.

(** Without gaps, the family of a class is the one that is used. *)
Lemma some_above c d : some_class P c -> inherits tb c d -> some_class P d.
Proof. intros Hc H. induction H as [|c p d Hp _ IH]; [exact Hc|]. apply IH. eapply (wfp_base n P W); eauto. Qed.
Lemma family_topmost c r : c < n -> some_class P c -> no_gap P x -> has_pred P x c -> (family_of P x c r <-> topmost P x c r).
Proof.
  intros Hc Sc NG Hx. assert (F : forall r, family_of P x c r -> topmost P x c r).
  { clear r. intros r H. revert Hc Sc Hx. induction H as [c Hr|c p r Hp Hpx H IH]; intros Hc Sc Hx.
    - split; [constructor|]. split; [exact Hx|]. intros e He Hex. inversion He as [|? q ? Hq He']; subst; [constructor|].
      exfalso. apply (Hr q Hq). eapply NG; eauto.
    - assert (p < c) by (eapply (super_lt n tb WT); eauto).
      destruct IH as (T1 & T2 & T3); [lia | eapply (wfp_base n P W); eauto | exact Hpx|].
      split; [eapply inh_step; eauto|]. split; [exact T2|]. intros e He Hex.
      inversion He as [|? q ? Hq He']; subst; [eapply inh_step; eauto|]. replace q with p in He' by congruence. auto. }
  split; [apply F|]. intros T.
  assert (E : exists r', family_of P x c r').
  { clear F T r NG Sc. revert Hc Hx. induction c as [c IH] using lt_wf_ind. intros Hc Hx.
    destruct (superclass tb c) as [p|] eqn:Hsup.
    - assert (p < c) by (eapply (super_lt n tb WT); eauto).
      destruct (mem x (p_preds P p)) eqn:M.
      + apply mem_In in M. destruct (IH p) as [r Hr]; try lia; [exact M|]. exists r. eapply fo_step; eauto.
      + apply mem_not in M. exists c. apply fo_root. intros q Hq. congruence.
    - exists c. apply fo_root. intros q Hq. congruence. }
  destruct E as [r' E]. rewrite (topmost_unique c r r' Hc T (F r' E)). exact E.
Qed.

Lemma all_classes_in c : In c (flat_map md_classes (p_modules P)) <-> some_class P c.
Proof.
  rewrite in_flat_map. unfold some_class, module_at. split.
  - intros [m [Hm Hc]]. apply In_nth_error in Hm. destruct Hm as [i Hi]. exists i, m. auto.
  - intros [i [m [Hm Hc]]]. exists m. split; [eapply nth_error_In; eauto | exact Hc].
Qed.

Let sound_classes : forall c, some_class P c -> c < n := wfp_classes n P W.

Lemma pred_root_total c : c < n -> has_pred P x c -> family_of P x c (pred_root P c x).
Proof.
  intros Hc Hx. assert (E : exists r', family_of P x c r').
  { revert Hc Hx. induction c as [c IH] using lt_wf_ind. intros Hc Hx.
    destruct (superclass tb c) as [p|] eqn:Hsup.
    - assert (p < c) by (eapply (super_lt n tb WT); eauto).
      destruct (mem x (p_preds P p)) eqn:M.
      + apply mem_In in M. destruct (IH p) as [r Hr]; try lia; [exact M|]. exists r. eapply fo_step; eauto.
      + apply mem_not in M. exists c. apply fo_root. intros q Hq. congruence.
    - exists c. apply fo_root. intros q Hq. congruence. }
  destruct E as [r E]. rewrite (pred_root_spec n P W c r x Hc E). exact E.
Qed.
Lemma members_in r c : In c (members P r x) <-> some_class P c /\ has_pred P x c /\ family_of P x c r.
Proof.
  unfold members. rewrite filter_In, all_classes_in, andb_true_iff, mem_In, Nat.eqb_eq. split.
  - intros [H1 [H2 H3]]. split; [exact H1|]. split; [exact H2|]. rewrite <- H3. apply pred_root_total; auto.
  - intros [H1 [H2 H3]]. split; [exact H1|]. split; [exact H2|]. eapply (pred_root_spec n P W); eauto.
Qed.

Lemma member_deps_small c d : In d (member_deps P x c) -> c < n -> d < c.
Proof.
  unfold member_deps, pred_overrides. destruct (superclass tb c) as [p|] eqn:Hsup; [|intros []].
  destruct (mem x (p_preds P p)); [|intros []]. intros [<-|[]] Hc. eapply (super_lt n tb WT); eauto.
Qed.

(** The dependencies of classes outside the program do not matter. *)
Definition deps' (c : cid) : list cid := filter (fun d => d <? c) (member_deps P x c).
Lemma topo_ext fuel (f g : cid -> list cid) rest : (forall c, In c rest -> f c = g c) -> toposort_f fuel f rest = toposort_f fuel g rest.
Proof.
  revert rest. induction fuel as [|k IH]; intros rest E; [reflexivity|]. destruct rest as [|r0 rest0]; [reflexivity|].
  remember (r0 :: rest0) as rest.
  assert (B : forall c, In c rest -> existsb (fun d => negb (d =? c) && mem d rest) (f c) = existsb (fun d => negb (d =? c) && mem d rest) (g c)).
  { intros c Hc. rewrite E by exact Hc. reflexivity. }
  assert (F1 : filter (fun c => negb (existsb (fun d => negb (d =? c) && mem d rest) (f c))) rest =
               filter (fun c => negb (existsb (fun d => negb (d =? c) && mem d rest) (g c))) rest).
  { apply filter_ext_in. intros c Hc. rewrite B by exact Hc. reflexivity. }
  assert (F2 : filter (fun c => existsb (fun d => negb (d =? c) && mem d rest) (f c)) rest =
               filter (fun c => existsb (fun d => negb (d =? c) && mem d rest) (g c)) rest).
  { apply filter_ext_in. intros c Hc. apply B. exact Hc. }
  cbn [toposort_f]. rewrite Heqrest in *. rewrite F1, F2.
  rewrite (IH (filter (fun c => existsb (fun d => negb (d =? c) && mem d (r0 :: rest0)) (g c)) (r0 :: rest0))); [reflexivity|].
  intros c Hc. apply filter_In in Hc. apply E. apply Hc.
Qed.

Lemma sorted_spec r : exists o, toposort_f (length (members P r x)) (member_deps P x) (members P r x) = Some o /\
  Permutation (members P r x) o /\
  forall l1 c l2 p, o = l1 ++ c :: l2 -> superclass tb c = Some p -> has_pred P x p -> In p (members P r x) -> In p l1.
Proof.
  rewrite (topo_ext _ (member_deps P x) deps').
  - destruct (topo_spec deps') with (fuel := length (members P r x)) (rest := members P r x) as (o & E & P1 & P2).
    { intros c d H. unfold deps' in H. apply filter_In in H. apply Nat.ltb_lt. apply H. }
    { lia. }
    exists o. split; [exact E|]. split; [exact P1|]. intros l1 c l2 p Eo Hp Hx Hm. eapply P2; eauto.
    assert (c < n).
    { apply sound_classes. apply (members_in r). eapply Permutation_in; [symmetry; exact P1|]. rewrite Eo. apply in_or_app. right. left. reflexivity. }
    unfold deps', member_deps, pred_overrides. rewrite Hp. apply mem_In in Hx. rewrite Hx. apply filter_In. split; [left; reflexivity|].
    apply Nat.ltb_lt. eapply (super_lt n tb WT); eauto.
  - intros c Hc. apply members_in in Hc. destruct Hc as [Sc _]. unfold deps'. symmetry.
    rewrite (filter_ext_in _ (fun _ => true)).
    + generalize (member_deps P x c). intros l. induction l as [|a l IHl]; cbn; [reflexivity|]. rewrite IHl. reflexivity.
    + intros d Hd. apply Nat.ltb_lt. eapply member_deps_small; eauto.
Qed.

Lemma map_snd_pairs (l : list cid) t : map snd (filter (fun gp : guard * part => guard_holds tb t (fst gp)) (map (fun c => (GSub c, PBody c)) l)) =
  map PBody (filter (fun c => issubtype tb t c) l).
Proof. induction l as [|c l IH]; [reflexivity|]. cbn [map filter guard_holds fst]. destruct (issubtype tb t c); cbn [map snd]; rewrite IH; reflexivity. Qed.

Lemma family_concrete lock r : concrete P x -> has_pred P x r -> exists o, Permutation (members P r x) o /\
  (forall l1 c l2 p, o = l1 ++ c :: l2 -> superclass tb c = Some p -> has_pred P x p -> In p (members P r x) -> In p l1) /\
  forall t, content P lock r x t = Some (map PBody (filter (fun c => issubtype tb t c) o) ++
    if lock then [] else if mem t o then [] else [PRest]).
Proof.
  intros C Hr. destruct (sorted_spec r) as (o & E & P1 & P2). exists o. split; [exact P1|]. split; [exact P2|].
  intros t. unfold content, translate_family.
  assert (A : existsb (fun c => negb (Bool.eqb (m_declared (p_info P (OClass c) x)) (m_declared (p_info P (OClass r) x)))) (members P r x) = false).
  { destruct (existsb _ _) eqn:X; [|reflexivity]. apply existsb_exists in X. destruct X as [c [Hc X]].
    apply members_in in Hc. rewrite (C c), (C r) in X by (try apply Hc; exact Hr). discriminate. }
  rewrite A, (C r Hr), E. rewrite filter_app, map_app, map_snd_pairs. f_equal. f_equal.
  destruct lock; [reflexivity|]. cbn. assert (M : forallb (fun c => negb (t =? c)) o = negb (mem t o)).
  { unfold mem. clear. induction o as [|c o IH]; [reflexivity|]. cbn. rewrite IH. destruct (t =? c); reflexivity. }
  rewrite M. destruct (mem t o); reflexivity.
Qed.

Lemma nodup_members r : classes_once P -> NoDup (members P r x).
Proof. intros H. apply NoDup_filter. exact H. Qed.

(** ** The content of the predicate that is used. *)
Lemma content_bodies lock c r : concrete P x -> no_gap P x -> some_class P c -> used_in_acc P c x = Some r ->
  exists l, content P lock r x c = Some l /\
    (classes_once P -> NoDup l) /\
    (forall d, In (PBody d) l <-> inherits tb c d /\ has_pred P x d) /\
    (In PRest l <-> lock = false /\ ~ has_pred P x c) /\
    (forall l1 d l2 e, l = l1 ++ PBody d :: l2 -> inherits tb d e -> e <> d -> has_pred P x e -> In (PBody e) l1).
Proof.
  intros C NG Sc U. assert (Hc : c < n) by (apply sound_classes; exact Sc).
  apply used_acc_spec in U; [|exact Hc]. destruct U as (U1 & U2 & U3).
  destruct (family_concrete lock r C U2) as (o & P1 & P2 & E). eexists. split; [apply E|].
  assert (M : forall d, In d o <-> some_class P d /\ has_pred P x d /\ family_of P x d r).
  { intros d. rewrite <- members_in. split; apply Permutation_in; [symmetry|]; exact P1. }
  assert (K : forall d, inherits tb c d -> (has_pred P x d <-> In d o)).
  { intros d Hd. rewrite M. split; [|intros H; apply H]. intros Hx.
    assert (Sd : some_class P d) by (eapply some_above; eauto). split; [exact Sd|]. split; [exact Hx|].
    apply family_topmost; auto. split; [auto|]. split; [exact U2|]. intros e He Hex. apply U3; [exact (inherits_trans tb c d e Hd He) | exact Hex]. }
  assert (F : forall d, In d (filter (fun d => issubtype tb c d) o) <-> inherits tb c d /\ has_pred P x d).
  { intros d. rewrite filter_In, (issubtype_spec n tb WT) by exact Hc. split.
    - intros [H1 H2]. split; [exact H2|]. apply K; auto.
    - intros [H1 H2]. split; [apply K; auto | exact H1]. }
  assert (R : ~ In PRest (map PBody (filter (fun d => issubtype tb c d) o))).
  { intros H. apply in_map_iff in H. destruct H as [d [H _]]. discriminate. }
  split; [|split; [|split]].
  - intros CO. assert (N : NoDup (map PBody (filter (fun d => issubtype tb c d) o))).
    { apply FinFun.Injective_map_NoDup; [intros a b H; congruence|]. apply NoDup_filter.
      eapply Permutation_NoDup; [exact P1|]. apply nodup_members. exact CO. }
    destruct lock; [rewrite app_nil_r; exact N|]. destruct (mem c o); [rewrite app_nil_r; exact N|].
    eapply (Permutation_NoDup (l := PRest :: map PBody (filter (fun d => issubtype tb c d) o))); [apply Permutation_cons_append|].
    constructor; assumption.
  - intros d. rewrite in_app_iff, <- F. split.
    + intros [H|H].
      * apply in_map_iff in H. destruct H as [d' [H1 H2]]. injection H1 as <-. exact H2.
      * destruct lock; [destruct H|]. destruct (mem c o); cbn in H; intuition discriminate.
    + intros H. left. apply in_map. exact H.
  - rewrite in_app_iff, (K c (inh_refl tb c)), <- mem_In. split.
    + intros [H|H]; [contradiction|]. destruct lock; [destruct H|]. destruct (mem c o); [destruct H|]. split; [reflexivity | discriminate].
    + intros [-> H]. right. destruct (mem c o); [congruence | left; reflexivity].
  - intros l1 d l2 e El He De Hx.
    destruct (topo_split _ _ _ _ _ El) as [(z & EA)|(z & _ & EB)].
    2:{ exfalso. destruct lock; [destruct z; discriminate|]. destruct (mem c o); [destruct z; discriminate|].
        destruct z as [|? [|? ?]]; cbn in EB; discriminate. }
    assert (Dd : inherits tb c d /\ has_pred P x d).
    { apply F. assert (In (PBody d) (map PBody (filter (fun d => issubtype tb c d) o))) by (rewrite EA; apply in_or_app; right; left; reflexivity).
      apply in_map_iff in H. destruct H as [d' [H1 H2]]. injection H1 as <-. exact H2. }
    (* every proper ancestor with the predicate comes earlier in o *)
    assert (O : forall m l1 l2, o = l1 ++ m :: l2 -> inherits tb c m -> has_pred P x m -> forall e, inherits tb m e -> e <> m -> has_pred P x e -> In e l1).
    { intros m. induction m as [m IHm] using lt_wf_ind. intros a b Eo Hcm Hm e' He' De' Hex'.
      inversion He' as [|? p ? Hp He2]; subst; [congruence|].
      assert (m < n) by (pose proof (inherits_le n tb WT c m Hc Hcm); lia).
      assert (p < m) by (eapply (super_lt n tb WT); eauto).
      assert (Hcp : inherits tb c p) by (eapply inherits_trans; [exact Hcm|]; eapply inh_step; [exact Hp | constructor]).
      assert (Hpx : has_pred P x p) by (exact (NG m p e' (some_above c m Sc Hcm) Hm Hp He2 Hex')).
      assert (Hin : In p a).
      { eapply P2; eauto. eapply Permutation_in; [symmetry; exact P1|]. apply K; auto. }
      destruct (Nat.eq_dec e' p) as [->|D]; [exact Hin|].
      apply in_split in Hin. destruct Hin as (a1 & a2 & ->).
      apply in_or_app. left. eapply (IHm p) with (l2 := a2 ++ m :: b); eauto. rewrite <- app_assoc. reflexivity. }
    assert (EA' : exists f1 f2, filter (fun d => issubtype tb c d) o = f1 ++ d :: f2 /\ l1 = map PBody f1).
    { clear - EA. revert l1 EA. generalize (filter (fun d => issubtype tb c d) o). intros l. induction l as [|a l IH]; intros l1 EA; [destruct l1; discriminate|].
      cbn in EA. destruct l1 as [|b l1]; cbn in EA.
      - injection EA as -> _. exists [], l. auto.
      - injection EA as <- EA. destruct (IH _ EA) as (f1 & f2 & -> & ->). exists (a :: f1), f2. auto. }
    destruct EA' as (f1 & f2 & Ef & ->).
    assert (SP : forall (g : cid -> bool) l f1 y f2, filter g l = f1 ++ y :: f2 -> exists a b, l = a ++ y :: b /\ filter g a = f1).
    { clear. intros g l. induction l as [|h l IH]; intros f1 y f2 E; [destruct f1; discriminate|]. cbn in E. destruct (g h) eqn:Gh.
      - destruct f1 as [|z f1]; cbn in E; injection E as -> E.
        + exists [], l. auto.
        + destruct (IH _ _ _ E) as (a & b & -> & <-). exists (z :: a), b. split; [reflexivity|]. cbn. rewrite Gh. reflexivity.
      - destruct (IH _ _ _ E) as (a & b & -> & <-). exists (h :: a), b. split; [reflexivity|]. cbn. rewrite Gh. reflexivity. }
    destruct (SP _ _ _ _ _ Ef) as (a & b & Eo & <-).
    apply in_map. apply filter_In. split; [eapply O; eauto; apply Dd|].
    apply (issubtype_spec n tb WT); [exact Hc|]. eapply inherits_trans; [apply Dd | exact He].
Qed.
End Fam.

Lemma mixed_rejected n P x lock r c : wf_prog n P -> some_class P c -> has_pred P x c -> family_of P x c r ->
  m_declared (p_info P (OClass c) x) <> m_declared (p_info P (OClass r) x) -> translate_family P lock r x = FRejected.
Proof.
  intros W Sc Hx Hf D. unfold translate_family.
  assert (E : existsb (fun c => negb (Bool.eqb (m_declared (p_info P (OClass c) x)) (m_declared (p_info P (OClass r) x)))) (members P r x) = true).
  { apply existsb_exists. exists c. split; [apply (members_in n P W); auto|].
    apply negb_true_iff. apply eqb_false_iff. exact D. }
  rewrite E. reflexivity.
Qed.

(** Unfolding through a static type. *)
Lemma unfold_static n P x lock t d r : wf_prog n P -> concrete P x -> no_gap P x -> some_class P t -> inherits (p_tb P) t d ->
  used_in_acc P d x = Some r -> exists l, content P lock r x t = Some l /\
  (forall e, inherits (p_tb P) d e -> has_pred P x e -> In (PBody e) l) /\
  (forall l', content P lock r x d = Some l' -> forall e, In (PBody e) l' -> In (PBody e) l).
Proof.
  intros W C NG St Hd U. assert (Ht : t < n) by (apply W; exact St).
  assert (Hdn : d < n) by (pose proof (inherits_le n (p_tb P) (wfp_table n P W) t d Ht Hd); lia).
  assert (T := proj1 (used_acc_spec n P W x d r Hdn) U).
  assert (Ut : used_in_acc P t x = Some r).
  { apply (used_acc_spec n P W); [exact Ht|]. destruct T as (T1 & T2 & T3).
    split; [exact (inherits_trans _ t d r Hd T1)|]. split; [exact T2|]. intros e He Hx.
    destruct (inherits_linear _ t d e Hd He) as [H|H]; [auto | exact (inherits_trans _ e d r H T1)]. }
  destruct (content_bodies n P W x lock t r C NG St Ut) as (l & E & _ & B & _ & _).
  exists l. split; [exact E|]. split.
  - intros e He Hx. apply B. split; [exact (inherits_trans _ t d e Hd He) | exact Hx].
  - intros l' E' e He. destruct (content_bodies n P W x lock d r C NG (some_above n P W t d St Hd) U) as (l2 & E2 & _ & B2 & _ & _).
    assert (l' = l2) as -> by congruence. apply B2 in He. apply B. split; [exact (inherits_trans _ t d e Hd (proj1 He)) | apply He].
Qed.
