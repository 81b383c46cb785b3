From Coq Require Import List ZArith Bool Lia ZifyBool Permutation.
From Verif Require Import IntModel SeqModel SeqSpec SeqProofs ContModel ContSpec.
Import ListNotations.
Open Scope Z_scope.

Lemma bool_len : forall A (l : list A) b, (b = true <-> l <> []) <-> b = negb (len l =? 0).
Proof.
  intros A l b. unfold len. destruct l as [|a l].
  - simpl. destruct b; intuition congruence.
  - replace (Z.of_nat (length (a :: l)) =? 0) with false by (symmetry; apply Z.eqb_neq; simpl; lia).
    simpl. destruct b; split; intro H; try reflexivity.
    + split; [discriminate|reflexivity].
    + apply (proj2 H). discriminate.
    + discriminate.
Qed.

(** * Sets *)
Section SetProofs.
  Context {V : Type}.
  Implicit Types (s : vset V) (l r : list V).

  Lemma vcard_list : forall s l, NoDup l -> (forall x, s x <-> In x l) -> forall n, vcard s n <-> n = len l.
  Proof.
    intros s l Hn Hl n. split.
    - intros (l' & Hn' & Hl' & <-).
      assert (P : Permutation l' l).
      { apply NoDup_Permutation; auto. intro x. rewrite Hl', Hl. tauto. }
      unfold vlen, len. now rewrite (Permutation_length P).
    - intros ->. exists l. split; [assumption|]. split; [|reflexivity]. intro x. symmetry. apply Hl.
  Qed.

  Lemma nodup_prefix : forall r,
    (forall i x, i >= 0 /\ i < vlen r -> vget r i = Some x -> ~ In x (vtake i r)) <-> NoDup r.
  Proof.
    intro r. split.
    - induction r as [|a r IH] using rev_ind; intro H; [constructor|].
      apply NoDup_Add with (a := a) (l := r).
      { rewrite <- (app_nil_r r) at 1. apply Add_app. }
      split.
      + apply IH. intros i x Hi Hx HI.
        unfold vlen in Hi. apply (H i x).
        * unfold vlen. rewrite app_length. simpl. lia.
        * unfold vget in *. destruct (i <? 0) eqn:E; [discriminate|].
          rewrite nth_error_app1 by lia. assumption.
        * unfold vtake in *. rewrite firstn_app. apply in_or_app. now left.
      + intro HI. apply (H (vlen r) a).
        * unfold vlen. rewrite app_length. simpl. lia.
        * unfold vget, vlen. destruct (Z.of_nat (length r) <? 0) eqn:E0; [lia|].
          rewrite Nat2Z.id, nth_error_app2, Nat.sub_diag by lia. reflexivity.
        * unfold vtake, vlen. rewrite Nat2Z.id, firstn_app, firstn_all. apply in_or_app. now left.
    - intros Hn i x Hi Hx HI.
      unfold vget in Hx. destruct (i <? 0) eqn:E; [discriminate|].
      unfold vtake in HI. apply nth_error_split in Hx. destruct Hx as (l1 & l2 & -> & Hl).
      rewrite <- Hl in HI. rewrite firstn_app, Nat.sub_diag, firstn_all in HI.
      simpl in HI. rewrite app_nil_r in HI. apply NoDup_remove_2 in Hn. apply Hn, in_or_app. now left.
  Qed.

  Lemma set_sil_seq_ok : forall s l r, NoDup l -> (forall x, s x <-> In x l) ->
    (set_sil_seq_post s r <-> Permutation r l).
  Proof.
    intros s l r Hn Hl. unfold set_sil_seq_post. rewrite nodup_prefix. split.
    - intros (_ & H2 & H3). apply NoDup_Permutation; auto. intro x. rewrite <- H2. apply Hl.
    - intro P. assert (Hr : NoDup r) by (apply (Permutation_NoDup (Permutation_sym P)); assumption).
      assert (M : forall c, s c <-> In c r).
      { intro c. rewrite Hl. split; apply Permutation_in; [now apply Permutation_sym|assumption]. }
      split; [|split; assumption].
      apply (vcard_list s r Hr M). reflexivity.
  Qed.

  Variable eq : V -> V -> bool.

  Lemma py_mem_in : forall (U : V -> Prop) l x, eq_is_id eq U -> (forall y, In y l -> U y) -> U x ->
    (py_mem eq l x = true <-> In x l).
  Proof.
    intros U l x HU Hl Hx. unfold py_mem. rewrite existsb_exists. split.
    - intros (y & Hy & E). apply (HU y x) in E; auto. now subst.
    - intro H. exists x. split; [assumption|]. apply (HU x x); auto.
  Qed.

  Definition set_rel s l : Prop := NoDup l /\ forall x, s x <-> In x l.

  Lemma set_step_ok : forall (U : V -> Prop) s l o, eq_is_id eq U -> (forall y, In y l -> U y) ->
    (forall y, In y (set_arg o) -> U y) -> set_rel s l ->
    match py_set_op eq l o with
    | Some l' => (forall y, In y l' -> U y) /\ (exists s', set_step s o s') /\
                 forall s', set_step s o s' -> set_rel s' l'
    | None => forall s', ~ set_step s o s'
    end.
  Proof.
    intros U s l o HU Hl Ho [Hn Hs]. destruct o as [x|x|]; cbn [py_set_op set_arg] in *.
    - assert (Ux : U x) by (apply Ho; simpl; auto).
      pose proof (py_mem_in U l x HU Hl Ux) as M.
      destruct (py_mem eq l x) eqn:E.
      + assert (Ix : In x l) by now apply M.
        split; [assumption|]. split.
        * exists (fun y => s y \/ y = x). intro y. tauto.
        * intros s' H. split; [assumption|]. intro y. cbn in H. rewrite (H y), Hs.
          split; [intros [?| ->]; assumption | now left].
      + assert (Nx : ~ In x l) by (intro I; apply M in I; discriminate).
        split.
        { intros y I. apply in_app_or in I. destruct I as [I|[<-|[]]]; auto. }
        split.
        * exists (fun y => s y \/ y = x). intro y. tauto.
        * intros s' H. split.
          { apply (NoDup_Add (a := x) (l := l)); [|split; assumption].
            rewrite <- (app_nil_r l) at 1. apply Add_app. }
          intro y. cbn in H. rewrite (H y), Hs, in_app_iff. simpl. intuition.
    - assert (Ux : U x) by (apply Ho; simpl; auto).
      pose proof (py_mem_in U l x HU Hl Ux) as M.
      destruct (py_mem eq l x) eqn:E.
      + assert (Ix : In x l) by now apply M.
        split.
        { intros y I. apply filter_In in I. apply Hl, I. }
        split.
        * exists (fun y => s y /\ y <> x). split; [now apply Hs|]. intro y. tauto.
        * intros s' [_ H]. split; [now apply NoDup_filter|].
          intro y. rewrite (H y), Hs, filter_In. split.
          { intros [I N]. split; [assumption|]. destruct (eq y x) eqn:E'; [|reflexivity].
            apply (proj1 (HU y x (Hl y I) Ux)) in E'. contradiction. }
          { intros [I N]. split; [assumption|]. intros ->.
            assert (T : eq x x = true) by (apply (HU x x); auto). now rewrite T in N. }
      + intros s' [P _]. apply Hs in P. apply M in P. discriminate.
    - split; [intros y []|]. split.
      + exists (fun _ => False). intros x H. exact H.
      + intros s' H. split; [constructor|]. intro y. split; [intro I; now apply H in I | intros []].
  Qed.

  Lemma set_steps_ok : forall (U : V -> Prop) ops s l, eq_is_id eq U -> (forall y, In y l -> U y) ->
    (forall y, In y (flat_map set_arg ops) -> U y) -> set_rel s l ->
    match py_set_ops eq l ops with
    | Some l' => (exists s', set_steps s ops s') /\ forall s', set_steps s ops s' -> set_rel s' l'
    | None => forall s', ~ set_steps s ops s'
    end.
  Proof.
    intros U ops. induction ops as [|o ops IH]; intros s l HU Hl Ho R; cbn [py_set_ops].
    - split; [exists s; constructor|]. intros s' H. inversion H; subst. assumption.
    - pose proof (set_step_ok U s l o HU Hl) as H.
      assert (H1 : forall y, In y (set_arg o) -> U y).
      { intros y I. apply Ho. cbn. apply in_or_app. now left. }
      specialize (H H1 R).
      destruct (py_set_op eq l o) as [l'|].
      + destruct H as (Hl' & (s1 & S1) & Hr).
        assert (H2 : forall y, In y (flat_map set_arg ops) -> U y).
        { intros y I. apply Ho. cbn. apply in_or_app. now right. }
        pose proof (fun s1 => IH s1 l' HU Hl' H2) as IH'.
        destruct (py_set_ops eq l' ops) as [l''|].
        * split.
          -- destruct (IH' s1 (Hr s1 S1)) as [[s2 S2] _]. exists s2. now apply set_more with s1.
          -- intros s2 S2. inversion S2; subst. eapply (IH' s'); eauto.
        * intros s2 S2. inversion S2; subst. eapply (IH' s'); eauto.
      + intros s' S'. inversion S'; subst. eapply H; eauto.
  Qed.

  Lemma set_run_ok : forall ops, eq_is_id eq (fun x => In x (flat_map set_arg ops)) ->
    match py_set_ops eq [] ops with
    | Some l => (exists s, set_run ops s) /\
                forall s, set_run ops s ->
                  NoDup l /\ (forall x, s x <-> In x l) /\
                  (forall n, set_len_post s n <-> n = len l) /\
                  (forall b, set_bool_post s b <-> (b = true <-> l <> [])) /\
                  (forall r, set_sil_seq_post s r <-> Permutation r l)
    | None => forall s, ~ set_run ops s
    end.
  Proof.
    intros ops HU.
    pose proof (fun s0 => set_steps_ok _ ops s0 [] HU (fun y H => match H with end) (fun y H => H)) as H.
    assert (R : forall s0, set_init_post s0 -> set_rel s0 []).
    { intros s0 H0. split; [constructor|]. intro x. split; [intro K; now apply H0 in K|intros []]. }
    destruct (py_set_ops eq [] ops) as [l|].
    - split.
      + destruct (H (fun _ => False)) as [[s S1] _]; [apply R; intros x K; exact K|].
        exists s, (fun _ => False). split; [intros x K; exact K|assumption].
      + intros s (s0 & H0 & S0). destruct (H s0 (R s0 H0)) as [_ H1]. destruct (H1 s S0) as [Hn Hs].
        pose proof (vcard_list s l Hn Hs) as C.
        split; [assumption|]. split; [assumption|]. split; [exact C|]. split.
        * intro b. unfold set_bool_post. rewrite bool_len. split.
          -- intros (n & Cn & ->). apply C in Cn. now subst n.
          -- intros ->. exists (len l). split; [now apply C|reflexivity].
        * intro r. now apply set_sil_seq_ok.
    - intros s (s0 & H0 & S0). exact (H s0 (R s0 H0) s S0).
  Qed.

  Lemma set_contains_ok : forall (U : V -> Prop) s l x b, eq_is_id eq U -> (forall y, In y l -> U y) -> U x ->
    (forall y, s y <-> In y l) -> (set_contains_post s x b <-> b = py_mem eq l x).
  Proof.
    intros U s l x b HU Hl Hx Hs. unfold set_contains_post.
    pose proof (py_mem_in U l x HU Hl Hx) as M. rewrite Hs.
    destruct b, (py_mem eq l x); intuition congruence.
  Qed.
End SetProofs.

(** * Dictionaries *)
Section DictProofs.
  Context {K W : Type}.
  Variable eq : K -> K -> bool.
  Implicit Types (d ops : list (K * W)) (m : vmap K W).

  Definition dict_rel (U : K -> Prop) m d : Prop :=
    NoDup (map fst d) /\ (forall k, In k (map fst d) -> U k) /\ forall k v, m k = Some v <-> In (k, v) d.

  Lemma py_dict_get_in : forall (U : K -> Prop) d k v, eq_is_id eq U -> NoDup (map fst d) ->
    (forall k, In k (map fst d) -> U k) -> U k -> (py_dict_get eq d k = Some v <-> In (k, v) d).
  Proof.
    intros U d k v HU Hn Hd Hk. induction d as [|[k' v'] d IH]; simpl in *.
    - split; [discriminate|tauto].
    - inversion Hn as [|? ? N1 N2]; subst.
      destruct (eq k' k) eqn:E.
      + apply (HU k' k) in E; auto. subst k'. split.
        * intros [= ->]. now left.
        * intros [[= ->]|I]; [reflexivity|]. exfalso. apply N1. apply (in_map fst) in I. exact I.
      + rewrite IH by auto. split; [now right|]. intros [[= -> ->]|I]; [|assumption].
        exfalso. assert (eq k k = true) by (apply (HU k k); auto). congruence.
  Qed.

  Lemma py_dict_set_keys : forall (U : K -> Prop) d k v, eq_is_id eq U ->
    (forall k, In k (map fst d) -> U k) -> U k ->
    forall j, In j (map fst (py_dict_set eq d k v)) <-> In j (map fst d) \/ j = k.
  Proof.
    intros U d k v HU Hd Hk j. induction d as [|[k' v'] d IH]; simpl in *.
    - intuition.
    - destruct (eq k' k) eqn:E; simpl.
      + apply (HU k' k) in E; auto. subst k'. intuition.
      + rewrite IH by auto. intuition.
  Qed.

  Lemma py_dict_set_rel : forall (U : K -> Prop) d k v, eq_is_id eq U -> NoDup (map fst d) ->
    (forall k, In k (map fst d) -> U k) -> U k ->
    NoDup (map fst (py_dict_set eq d k v)) /\
    forall j w, In (j, w) (py_dict_set eq d k v) <-> (j = k /\ w = v) \/ (j <> k /\ In (j, w) d).
  Proof.
    intros U d k v HU Hn Hd Hk. induction d as [|[k' v'] d IH]; simpl in *.
    - split; [constructor; [tauto|constructor]|]. intros j w. split.
      + intros [[= -> ->]|[]]. now left.
      + intros [[-> ->]|[_ []]]. now left.
    - inversion Hn as [|? ? N1 N2]; subst.
      assert (Hd' : forall k, In k (map fst d) -> U k) by auto.
      specialize (IH N2 Hd'). destruct IH as [IH1 IH2].
      destruct (eq k' k) eqn:E; simpl.
      + apply (HU k' k) in E; auto. subst k'. split; [assumption|].
        intros j w. split.
        * intros [[= -> ->]|I]; [now left|]. right. split; [|now right].
          intros ->. apply N1. apply (in_map fst) in I. exact I.
        * intros [[-> ->]|[N [[= -> ->]|I]]]; [now left|contradiction|now right].
      + assert (k' <> k) by (intros ->; assert (eq k k = true) by (apply (HU k k); auto); congruence).
        split.
        * constructor; [|assumption]. intro I.
          pose proof (proj1 (py_dict_set_keys U d k v HU Hd' Hk k') I) as I'. destruct I'; auto.
        * intros j w. rewrite IH2. split.
          -- intros [[= -> ->]|[?|[? ?]]]; [right; split; [assumption|now left]|now left|right; split; [assumption|now right]].
          -- intros [?|[? [[= -> ->]|?]]]; auto.
  Qed.

  Variable K_dec : forall x y : K, {x = y} + {x <> y}.

  Lemma dict_step_rel : forall (U : K -> Prop) m d k v m', eq_is_id eq U -> U k -> dict_rel U m d ->
    dict_setitem_post m k v m' -> dict_rel U m' (py_dict_set eq d k v).
  Proof.
    intros U m d k v m' HU Hk (Hn & Hd & Hm) [H1 H2].
    destruct (py_dict_set_rel U d k v HU Hn Hd Hk) as [A B].
    split; [assumption|]. split.
    - intros j I. apply (py_dict_set_keys U d k v HU Hd Hk) in I. destruct I as [I| ->]; auto.
    - intros j w. rewrite B, <- Hm. destruct (K_dec j k) as [->|N].
      + rewrite H1. intuition congruence.
      + rewrite (H2 j N). intuition.
  Qed.

  Lemma dict_steps_ok : forall (U : K -> Prop) ops m d, eq_is_id eq U -> (forall k, In k (map fst ops) -> U k) ->
    dict_rel U m d ->
    (exists m', dict_steps m ops m') /\
    forall m', dict_steps m ops m' ->
      dict_rel U m' (fold_left (fun d kv => py_dict_set eq d (fst kv) (snd kv)) ops d).
  Proof.
    intros U ops. induction ops as [|[k v] ops IH]; intros m d HU Ho R; simpl.
    - split; [exists m; constructor|]. intros m' H. inversion H; subst. assumption.
    - simpl in Ho.
      assert (Uk : U k) by auto.
      assert (Hex : exists m1, dict_setitem_post m k v m1).
      { exists (fun j => if K_dec j k then Some v else m j). split.
        - destruct (K_dec k k); congruence.
        - intros j N. destruct (K_dec j k); congruence. }
      split.
      + destruct Hex as [m1 H1].
        destruct (IH m1 _ HU (fun k H => Ho k (or_intror H)) (dict_step_rel U m d k v m1 HU Uk R H1)) as [[m2 H2] _].
        exists m2. now apply dict_more with m1.
      + intros m2 H. inversion H as [|? ? ? m1 ? ? H1 H2]; subst.
        eapply (IH m1); eauto. eapply dict_step_rel; eauto.
  Qed.

  Lemma dict_run_ok : forall (U : K -> Prop) ops, eq_is_id eq U -> (forall k, In k (map fst ops) -> U k) ->
    (exists m, dict_run ops m) /\ forall m, dict_run ops m -> dict_rel U m (py_dict_run eq ops).
  Proof.
    intros U ops HU Ho.
    assert (R : forall m0, dict_init_post m0 -> dict_rel U m0 []).
    { intros m0 H0. split; [constructor|]. split; [intros k []|]. intros k v. rewrite (H0 k).
      split; [discriminate|intros []]. }
    split.
    - destruct (dict_steps_ok U ops (fun _ => None) [] HU Ho) as [[m H] _]; [apply R; intro; reflexivity|].
      exists m, (fun _ => None). split; [intro; reflexivity|assumption].
    - intros m (m0 & H0 & H). now apply (dict_steps_ok U ops m0 [] HU Ho (R m0 H0)).
  Qed.

  Lemma rel_dom : forall U m d, dict_rel U m d -> forall k, vdom m k <-> In k (map fst d).
  Proof.
    intros U m d (Hn & Hd & Hm) k. unfold vdom. split.
    - destruct (m k) as [v|] eqn:E; [|congruence]. intros _. apply Hm in E. apply (in_map fst) in E. exact E.
    - intros I. apply in_map_iff in I. destruct I as ([k' v] & <- & I). apply Hm in I. simpl. congruence.
  Qed.

  Lemma rel_len : forall U m d, dict_rel U m d -> forall n, dict_len_post m n <-> n = len d.
  Proof.
    intros U m d R n. unfold dict_len_post.
    rewrite (vcard_list (vdom m) (map fst d) (proj1 R) (rel_dom U m d R)).
    unfold len. now rewrite map_length.
  Qed.

  Lemma rel_get : forall U m d, eq_is_id eq U -> dict_rel U m d -> forall k, U k -> m k = py_dict_get eq d k.
  Proof.
    intros U m d HU (Hn & Hd & Hm) k Hk.
    destruct (m k) as [v|] eqn:E.
    - apply Hm in E. symmetry. apply (py_dict_get_in U d k v HU Hn Hd Hk). assumption.
    - destruct (py_dict_get eq d k) as [v|] eqn:E'; [|reflexivity].
      apply (py_dict_get_in U d k v HU Hn Hd Hk) in E'. apply Hm in E'. congruence.
  Qed.

  Lemma rel_sil_seq : forall U m d, dict_rel U m d -> forall r, dict_sil_seq_post m r <-> Permutation r (map fst d).
  Proof.
    intros U m d R r. pose proof (rel_dom U m d R) as D. destruct R as (Hn & Hd & Hm).
    unfold dict_sil_seq_post. rewrite (vcard_list (vdom m) (map fst d) Hn D). split.
    - intros [L M]. unfold vlen, len in L.
      assert (Hr : NoDup r).
      { apply (NoDup_incl_NoDup Hn); [lia|]. intros x I. apply M, D, I. }
      apply NoDup_Permutation; auto. intro x. rewrite <- D. symmetry. apply M.
    - intro P. split; [unfold vlen, len; now rewrite (Permutation_length P)|].
      intro k. rewrite D. split; apply Permutation_in; [now apply Permutation_sym|assumption].
  Qed.

  Lemma rel_values : forall U m d, dict_rel U m d -> dict_values_post m (map snd d).
  Proof.
    intros U m d R. pose proof (rel_len U m d R) as L. destruct R as (Hn & Hd & Hm).
    split.
    - apply L. unfold vlen, len. now rewrite map_length.
    - intro v. rewrite in_map_iff. split.
      + intros ([k w] & <- & I). exists k. now apply Hm.
      + intros (k & E). exists (k, v). split; [reflexivity|now apply Hm].
  Qed.

  Lemma dict_history : forall (U : K -> Prop) ops, eq_is_id eq U -> (forall k, In k (map fst ops) -> U k) ->
    (exists m, dict_run ops m) /\
    forall m, dict_run ops m ->
      let d := py_dict_run eq ops in
      (forall k, U k ->
        (dict_getitem_pre m k <-> py_dict_get eq d k <> None) /\
        (forall v, dict_getitem_post m k v <-> py_dict_get eq d k = Some v) /\
        (forall r, dict_get_post m k r <-> r = py_dict_get eq d k) /\
        (forall b, dict_contains_post m k b <-> (b = true <-> py_dict_get eq d k <> None))) /\
      (forall n, dict_len_post m n <-> n = len d) /\
      (forall b, dict_bool_post m b <-> (b = true <-> d <> [])) /\
      (forall r, dict_keys_post m r <-> forall k, r k <-> In k (map fst d)) /\
      (forall r, dict_sil_seq_post m r <-> Permutation r (map fst d)) /\
      dict_values_post m (map snd d).
  Proof.
    intros U ops HU Ho. destruct (dict_run_ok U ops HU Ho) as [Hex Hr]. split; [assumption|].
    intros m Hm d. specialize (Hr m Hm). fold d in Hr.
    pose proof (rel_dom U m d Hr) as D. pose proof (rel_len U m d Hr) as L.
    split; [|split; [|split; [|split; [|split]]]].
    - intros k Uk. pose proof (rel_get U m d HU Hr k Uk) as G.
      unfold dict_getitem_pre, dict_getitem_post, dict_get_post, dict_contains_post, vdom.
      rewrite <- G.
      split; [tauto|]. split; [tauto|]. split.
      + intro r. destruct (m k) as [v|] eqn:E.
        * split.
          -- intros [H _]. destruct H as (v' & E' & ->); [congruence|]. unfold dict_getitem_post in E'. congruence.
          -- intros ->. split; [intros _; exists v; unfold dict_getitem_post; auto|]. intro N. exfalso. apply N. discriminate.
        * split.
          -- intros [_ H]. apply H. congruence.
          -- intros ->. split; [congruence|reflexivity].
      + tauto.
    - exact L.
    - intro b. unfold dict_bool_post, dict_len_post in *. rewrite bool_len. split.
      + intros (n & Cn & ->). apply L in Cn. now subst n.
      + intros ->. exists (len d). split; [now apply L|reflexivity].
    - intro r. unfold dict_keys_post. split; intros H k; [rewrite H|rewrite H]; [apply D|symmetry; apply D].
    - exact (rel_sil_seq U m d Hr).
    - exact (rel_values U m d Hr).
  Qed.
End DictProofs.

(** * Iterators *)
Section IterProofs.
  Context {V : Type}.
  Implicit Types (xs : list V) (it : iter V).

  Lemma vget_at_iff : forall xs i x, vget xs i = Some x <-> at_ xs i x.
  Proof.
    intros xs i x. unfold vget, at_. destruct (i <? 0) eqn:E; split; intro H; [discriminate|lia| |apply H].
    split; [lia|assumption].
  Qed.

  Lemma take_step : forall xs p x, at_ xs p x -> vtake (p + 1) xs = vtake p xs ++ [x].
  Proof.
    intros xs p x [H0 H1]. unfold vtake. rewrite Z2Nat.inj_add by lia. change (Z.to_nat 1) with 1%nat.
    revert H1. generalize (Z.to_nat p). clear. intro n. revert xs. induction n; intros [|a xs]; simpl; try discriminate.
    - intros [= ->]. reflexivity.
    - intro H. f_equal. now apply IHn.
  Qed.

  Lemma take_all : forall xs n, len xs <= n -> vtake n xs = xs.
  Proof. intros xs n H. unfold vtake. apply firstn_all2. unfold len in H. lia. Qed.

  Lemma iter_start : forall xs it, iter_init_post xs it <-> iter_at xs 0 false it.
  Proof.
    intros xs it. unfold iter_init_post, iter_at. split.
    - intros (-> & -> & ->). unfold len. repeat split; try lia.
    - intros (-> & -> & _ & ->). repeat split.
  Qed.

  Lemma next_more : forall xs p it, iter_at xs p false it -> p < len xs ->
    forall x err it', next_post it x err it' <-> err = false /\ at_ xs p x /\ iter_at xs (p + 1) false it'.
  Proof.
    intros xs p [l i pr] (E1 & E2 & E3 & E4) Hp x err [l' i' pr']. simpl in *. subst l i pr.
    unfold next_post, iter_at; cbn [it_list it_index it_prev].
    split.
    - intros (C20 & C22 & C23 & C25 & C26 & C27 & C28 & C29 & C30 & C31 & C34). subst l'.
      assert (err = false).
      { destruct err; [|reflexivity]. exfalso. assert (p = vlen xs) by now apply C23. unfold vlen, len in *. lia. }
      subst err. rewrite (C27 eq_refl), (C25 eq_refl) in *.
      split; [reflexivity|]. split.
      + apply vget_at_iff. replace p with (p + 1 - 1) by lia. apply C31. unfold vlen, len in *. lia.
      + split; [reflexivity|]. split; [reflexivity|]. split; [unfold vlen, len in *; lia|reflexivity].
    - intros (-> & Hx & -> & -> & _ & ->).
      assert (Hv : vget xs p = Some x) by now apply vget_at_iff.
      replace (p + 1 - 1) with p by lia. replace (p + 1 - 2) with (p - 1) by lia.
      unfold vlen, len in *.
      split; [reflexivity|]. split; [lia|]. split; [split; [lia|discriminate]|].
      split; [reflexivity|]. split; [lia|]. split; [reflexivity|]. split; [lia|].
      split; [discriminate|]. split; [discriminate|]. split.
      { intros _. split; [assumption|]. destruct Hx as [_ Hx]. now apply nth_error_In in Hx. }
      intro r. destruct (Z.eq_dec p 0) as [->|N].
      + simpl. split; [intros []|]. intros [[]|[(H & _)|(_ & H & _)]]; [lia|discriminate].
      + destruct (nth_error xs (Z.to_nat (p - 1))) as [y|] eqn:E.
        2:{ apply nth_error_None in E. lia. }
        assert (A : at_ xs (p - 1) y) by (split; [lia|assumption]).
        rewrite <- (Z.sub_add 1 p) at 1. rewrite (take_step xs (p - 1) y A), in_app_iff.
        assert (Hg : vget xs (p - 1) = Some y) by now apply vget_at_iff.
        rewrite Hg. split.
        * intros [I|[<-|[]]]; [now left|]. right. left. split; [lia|]. now split.
        * intros [I|[(_ & [= ->] & _)|(_ & H & _)]]; [now left|right; now left|discriminate].
  Qed.

  Lemma next_end : forall xs e it, iter_at xs (len xs) e it ->
    forall x err it', next_post it x err it' <->
      err = true /\ iter_at xs (len xs) true it' /\ (xs <> [] -> at_ xs (len xs - 1) x).
  Proof.
    intros xs e [l i pr] (E1 & E2 & E3 & E4) x err [l' i' pr']. simpl in *. subst l i.
    unfold next_post, iter_at; cbn [it_list it_index it_prev].
    assert (Hpr : forall r, In r xs <-> In r pr \/ (len xs > 0 /\ Some r = vget xs (len xs - 1))).
    { intro r. destruct e.
      - destruct E4 as [_ ->]. split; [now left|]. intros [I|(_ & E)]; [assumption|].
        symmetry in E. apply vget_at_iff in E. destruct E as [_ E]. now apply nth_error_In in E.
      - subst pr. destruct xs as [|a xs0].
        + simpl. split; [intros []|]. intros [[]|(H & _)]. unfold len in H; simpl in H; lia.
        + set (xs := a :: xs0) in *. assert (len xs > 0) by (unfold len, xs; simpl; lia).
          destruct (nth_error xs (Z.to_nat (len xs - 1))) as [y|] eqn:E.
          2:{ apply nth_error_None in E. unfold len in *. lia. }
          assert (A : at_ xs (len xs - 1) y) by (split; [lia|assumption]).
          pose proof (take_step xs _ y A) as T. rewrite Z.sub_add, take_all in T by lia.
          assert (Hg : vget xs (len xs - 1) = Some y) by now apply vget_at_iff.
          rewrite Hg, T at 1. rewrite in_app_iff. split.
          * intros [I|[<-|[]]]; [now left|]. right. now split.
          * intros [I|(_ & [= ->])]; [now left|right; now left]. }
    change (@vlen V) with (@len V).
    assert (NE : xs <> [] <-> len xs > 0).
    { unfold len. destruct xs; simpl; split; try congruence; lia. }
    split.
    - intros (C20 & C22 & C23 & C25 & C26 & C27 & C28 & C29 & C30 & C31 & C34). subst l'.
      assert (err = true) by now apply C23. subst err.
      rewrite (C29 eq_refl), (C30 eq_refl) in *.
      split; [reflexivity|]. split; [split; [reflexivity|split; [reflexivity|split; [unfold len; lia|split; reflexivity]]]|].
      intro N. apply vget_at_iff. apply C31. now apply NE.
    - intros (-> & (-> & -> & _ & _ & ->) & Hx).
      split; [reflexivity|]. split; [lia|]. split; [split; reflexivity|].
      split; [discriminate|]. split; [discriminate|]. split; [discriminate|]. split; [lia|].
      split; [reflexivity|]. split; [reflexivity|]. split.
      { intro N. apply NE in N. specialize (Hx N). split; [now apply vget_at_iff|].
        destruct Hx as [_ Hx]. now apply nth_error_In in Hx. }
      intro r. rewrite Hpr. split.
      + intros [I|[G E]]; [now left|]. right. right. split; [lia|]. now split.
      + intros [I|[(_ & _ & H)|(G & _ & E)]]; [now left|discriminate|]. right. split; assumption.
  Qed.

  Context {St : Type}.
  Variables (assign : V -> St -> St) (body : list V -> St -> outcome St) (orelse : St -> outcome St).

  Lemma at_split : forall xs p x, at_ xs p x -> xs = vtake p xs ++ x :: vdrop (p + 1) xs.
  Proof.
    intros xs p x H. pose proof (take_step xs p x H) as T.
    rewrite <- (firstn_skipn (Z.to_nat (p + 1)) xs) at 1.
    change (firstn (Z.to_nat (p + 1)) xs) with (vtake (p + 1) xs).
    rewrite T, <- app_assoc. reflexivity.
  Qed.

  Lemma drop_at : forall xs p x, at_ xs p x -> vdrop p xs = x :: vdrop (p + 1) xs.
  Proof.
    intros xs p x [H0 H1]. unfold vdrop. rewrite Z2Nat.inj_add by lia. change (Z.to_nat 1) with 1%nat.
    rewrite Nat.add_1_r. now apply skipn_S_nth.
  Qed.

  (** The state after a next that handed out the element at position [p - 1] = x. *)
  Lemma loop_ok : forall rest xs p it s o,
    (1 <= p)%Z -> iter_at xs p false it -> (vdrop p xs = rest)%Z ->
    (loop_run assign body orelse it false s o <->
     o = match body (vtake (p - 1) xs) s with
         | Normal s' | Continue s' => py_for assign body orelse (vtake p xs) rest s'
         | Break s' => Normal s'
         | Leave s' => Leave s'
         end).
  Proof.
    induction rest as [|y rest IH]; intros xs p it s o Hp Hit Hr.
    - assert (Pe : p = len xs).
      { destruct Hit as (_ & _ & B & _). unfold vdrop in Hr. apply (f_equal (@length V)) in Hr.
        rewrite skipn_length in Hr. simpl in Hr. unfold len in *. lia. }
      assert (Ep : it_prev it = vtake (p - 1) xs) by apply Hit.
      subst p. split.
      + intro H. inversion H; subst; rewrite <- Ep.
        * match goal with B : _ \/ _ |- _ => destruct B as [B|B]; rewrite B end;
          match goal with N : next_post _ _ _ _ |- _ => apply (next_end xs false it Hit) in N; destruct N as (-> & _) end;
          match goal with L : loop_run _ _ _ _ _ _ _ |- _ => inversion L; subst; reflexivity end.
        * now rewrite H0.
        * now rewrite H0.
      + rewrite <- Ep. destruct (body (it_prev it) s) as [s'|s'|s'|s'] eqn:B; intros ->.
        * destruct xs as [|a xs0]; [unfold len in Hp; simpl in Hp; lia|]. set (xs := a :: xs0) in *.
          destruct (nth_error xs (Z.to_nat (len xs - 1))) as [z|] eqn:Ez.
          2:{ apply nth_error_None in Ez. unfold len in *. lia. }
          apply (loop_iter assign body orelse it s s' z true (Build_iter xs (len xs) xs)); [now left| |].
          -- apply (next_end xs false it Hit). split; [reflexivity|]. split.
             ++ repeat split; unfold len; simpl; lia.
             ++ intros _. split; [lia|assumption].
          -- simpl. constructor.
        * now apply loop_break.
        * destruct xs as [|a xs0]; [unfold len in Hp; simpl in Hp; lia|]. set (xs := a :: xs0) in *.
          destruct (nth_error xs (Z.to_nat (len xs - 1))) as [z|] eqn:Ez.
          2:{ apply nth_error_None in Ez. unfold len in *. lia. }
          apply (loop_iter assign body orelse it s s' z true (Build_iter xs (len xs) xs)); [now right| |].
          -- apply (next_end xs false it Hit). split; [reflexivity|]. split.
             ++ repeat split; unfold len; simpl; lia.
             ++ intros _. split; [lia|assumption].
          -- simpl. constructor.
        * now apply loop_leave.
    - assert (Ay : at_ xs p y).
      { split; [lia|]. unfold vdrop in Hr. revert Hr. generalize (Z.to_nat p). clear. intro n.
        revert xs. induction n; intros [|a xs] Hr; simpl in *; try discriminate; [congruence|auto]. }
      assert (Pl : p < len xs).
      { destruct Ay as [_ Ay]. assert (Z.to_nat p < length xs)%nat by (apply nth_error_Some; congruence). unfold len. lia. }
      assert (Ep : it_prev it = vtake (p - 1) xs) by apply Hit.
      assert (Hr' : vdrop (p + 1) xs = rest).
      { rewrite (drop_at xs p y Ay) in Hr. congruence. }
      pose proof (take_step xs p y Ay) as T.
      set (it2 := Build_iter xs (p + 1) (vtake p xs)).
      assert (Hit2 : iter_at xs (p + 1) false it2).
      { unfold it2, iter_at; simpl. replace (p + 1 - 1) with p by lia. repeat split; try lia. }
      assert (Q : forall s', py_for assign body orelse (vtake p xs) (y :: rest) s' =
        match body (vtake (p + 1 - 1) xs) (assign y s') with
         | Normal s' | Continue s' => py_for assign body orelse (vtake (p + 1) xs) rest s'
         | Break s' => Normal s'
         | Leave s' => Leave s'
         end).
      { intro s'. rewrite T. replace (p + 1 - 1) with p by lia. reflexivity. }
      split.
      + intro H. inversion H as [| ? ? s' x err it' ? B N L | ? ? s' B | ? ? s' B]; subst; rewrite <- Ep.
        * apply (next_more xs p it Hit Pl) in N. destruct N as (-> & Ax & Hit').
          assert (x = y) by (destruct Ax, Ay; congruence). subst x.
          simpl in L. apply (IH xs (p + 1) it') in L; [|lia|assumption|reflexivity].
          destruct B as [B|B]; rewrite B, Q; exact L.
        * now rewrite B.
        * now rewrite B.
      + rewrite <- Ep. destruct (body (it_prev it) s) as [s'|s'|s'|s'] eqn:B; intros ->.
        * apply (loop_iter assign body orelse it s s' y false it2); [now left| |].
          -- apply (next_more xs p it Hit Pl). now split.
          -- simpl. apply (IH xs (p + 1) it2); [lia|assumption|assumption|]. apply Q.
        * now apply loop_break.
        * apply (loop_iter assign body orelse it s s' y false it2); [now right| |].
          -- apply (next_more xs p it Hit Pl). now split.
          -- simpl. apply (IH xs (p + 1) it2); [lia|assumption|assumption|]. apply Q.
        * now apply loop_leave.
  Qed.

  Lemma for_ok : forall xs s o, inhabited V ->
    (for_run assign body orelse xs s o <-> o = py_for assign body orelse [] xs s).
  Proof.
    intros xs s o [v0]. unfold for_run. destruct xs as [|a xs0].
    - split.
      + intros (it0 & it & x & err & H0 & N & L). apply iter_start in H0.
        apply (next_end [] false it0 H0) in N. destruct N as (-> & _). inversion L; subst. reflexivity.
      + intros ->. exists (@Build_iter V [] 0 []), (@Build_iter V [] 0 []), v0, true.
        assert (I : iter_at [] 0 false (@Build_iter V [] 0 [])) by (repeat split; unfold len; simpl; lia).
        split; [now apply iter_start|]. split.
        * apply (next_end [] false _ I). split; [reflexivity|]. split; [|congruence].
          repeat split; unfold len; simpl; lia.
        * simpl. constructor.
    - set (xs := a :: xs0).
      assert (Aa : at_ xs 0 a) by (split; [lia|reflexivity]).
      assert (Pl : 0 < len xs) by (unfold len, xs; simpl; lia).
      split.
      + intros (it0 & it & x & err & H0 & N & L). apply iter_start in H0.
        apply (next_more xs 0 it0 H0 Pl) in N. destruct N as (-> & Ax & Hit).
        assert (x = a) by (destruct Ax, Aa; congruence). subst x.
        apply (loop_ok xs0 xs 1 it) in L; [|lia|assumption|reflexivity].
        rewrite L. reflexivity.
      + intros ->. exists (Build_iter xs 0 []), (Build_iter xs 1 []), a, false.
        assert (I : iter_at xs 0 false (Build_iter xs 0 [])) by (repeat split; simpl; unfold len in *; lia).
        assert (I1 : iter_at xs 1 false (Build_iter xs 1 [])) by (repeat split; simpl; unfold len in *; lia).
        split; [now apply iter_start|]. split.
        * apply (next_more xs 0 _ I Pl). now split.
        * simpl. apply (loop_ok xs0 xs 1); [lia|assumption|reflexivity|]. reflexivity.
  Qed.

  (** State invariant at the loop head. *)
  Lemma head_inv : forall xs s0 done it x err s, loop_head assign body xs s0 done it x err s ->
    it_prev it = done /\ exists p, iter_at xs p err it /\ (xs <> [] -> at_ xs (p - 1) x) /\ (err = false -> 1 <= p).
  Proof.
    clear orelse. intros xs s0 done it x err s H. induction H as [it0 it x err H0 N | done it x s s' y err it' H IH B N].
    - apply iter_start in H0.
      destruct xs as [|a xs0].
      + apply (next_end [] false it0 H0) in N. destruct N as (-> & I & _).
        split; [apply I|]. exists 0. split; [exact I|]. split; congruence.
      + assert (Pl : 0 < len (a :: xs0)) by (unfold len; simpl; lia).
        apply (next_more _ 0 it0 H0 Pl) in N. destruct N as (-> & Ax & Hit).
        split; [destruct Hit as (_ & _ & _ & ->); reflexivity|].
        exists 1. split; [exact Hit|]. split; [intros _; exact Ax|lia].
    - destruct IH as (Ed & p & Hit & Hx & Hp). specialize (Hp eq_refl).
      assert (Pb : p <= len xs) by apply Hit.
      assert (Ne : xs <> []) by (intros ->; unfold len in Pb; simpl in Pb; lia).
      specialize (Hx Ne).
      assert (Ep : it_prev it = vtake (p - 1) xs) by apply Hit.
      pose proof (take_step xs (p - 1) x Hx) as T. rewrite Z.sub_add in T.
      destruct (Z.eq_dec p (len xs)) as [->|Nl].
      + apply (next_end xs false it Hit) in N. destruct N as (-> & I & Hy).
        split.
        * destruct I as (_ & _ & _ & _ & ->). rewrite <- Ed, Ep, <- T. symmetry. apply take_all. lia.
        * exists (len xs). split; [exact I|]. split; [exact Hy|discriminate].
      + apply (next_more xs p it Hit) in N; [|lia]. destruct N as (-> & Ay & I).
        split.
        * destruct I as (_ & _ & _ & ->). rewrite <- Ed, Ep, <- T. f_equal. lia.
        * exists (p + 1). split; [exact I|]. split; [|lia]. intros _. replace (p + 1 - 1) with p by lia. exact Ay.
  Qed.

  Lemma head_invariant : forall xs s0 done it x err s, loop_head assign body xs s0 done it x err s ->
    for_invariant xs it x err /\ it_prev it = done /\ exists rest, xs = done ++ rest /\ (err = true <-> rest = []).
  Proof.
    clear orelse. intros xs s0 done it x err s H. destruct (head_inv _ _ _ _ _ _ _ H) as (Ed & p & Hit & Hx & Hp).
    assert (NE : xs <> [] <-> len xs > 0).
    { unfold len. destruct xs; simpl; split; try congruence; lia. }
    destruct it as [l i pr]. destruct Hit as (E1 & E2 & B & E4). simpl in *. subst l i.
    split; [|split; [assumption|]].
    - unfold for_invariant; simpl. change (@vlen V) with (@len V). destruct err.
      + destruct E4 as [-> ->].
        repeat match goal with |- _ /\ _ => split end; try discriminate; try reflexivity; try lia; intro G.
        * apply vget_at_iff, Hx, NE, G.
        * apply NE in G. specialize (Hx G). destruct Hx as [_ Hx]. now apply nth_error_In in Hx.
      + specialize (Hp eq_refl). assert (Ln : len pr = p - 1).
        { rewrite E4. unfold len, vtake in *. rewrite firstn_length. lia. }
        repeat match goal with |- _ /\ _ => split end; try discriminate; try reflexivity; try lia; intro G;
          [apply vget_at_iff, Hx, NE, G | | assumption].
        apply NE in G. specialize (Hx G). destruct Hx as [_ Hx]. now apply nth_error_In in Hx.
    - destruct err.
      + destruct E4 as [-> ->]. exists []. rewrite app_nil_r. split; [congruence|]. tauto.
      + specialize (Hp eq_refl). exists (vdrop (p - 1) xs). split.
        * rewrite <- Ed, E4. symmetry. apply firstn_skipn.
        * split; [discriminate|]. intro E. exfalso. unfold vdrop in E. apply (f_equal (@length V)) in E.
          rewrite skipn_length in E. simpl in E. unfold len in *. lia.
  Qed.
End IterProofs.

(** * Comprehensions *)
Section CompProofs.
  Context {A B C : Type}.

  Lemma py_listcomp_in : forall (f : A -> B) p s y,
    In y (py_listcomp f p s) <-> exists x, In x s /\ p x = true /\ y = f x.
  Proof.
    intros f p s y. induction s as [|a s IH]; simpl.
    - split; [intros []|]. intros (x & [] & _).
    - destruct (p a) eqn:E; simpl; rewrite IH; split.
      + intros [<-|(x & I & P & ->)]; [exists a|exists x]; auto.
      + intros (x & [<-|I] & P & ->); [now left|]. right. now exists x.
      + intros (x & I & P & ->). exists x. auto.
      + intros (x & [<-|I] & P & ->); [congruence|]. now exists x.
  Qed.

  Lemma py_listcomp_len : forall (f : A -> B) p s, len (py_listcomp f p s) <= len s.
  Proof.
    intros f p s. unfold len. induction s as [|a s IH]; simpl; [lia|].
    destruct (p a); simpl; lia.
  Qed.

  Lemma seq_elem_in : forall (s : list A) i x, seq_elem s i x -> In x s.
  Proof. intros s i x H. apply vget_at_iff in H. destruct H as [_ H]. now apply nth_error_In in H. Qed.

  Lemma listcomp_exact : forall (f : A -> B) s r,
    listcomp_post (vlen s) (seq_elem s) f r <-> r = py_listcomp f (fun _ => true) s.
  Proof.
    intros f s r. assert (E : py_listcomp f (fun _ => true) s = map f s).
    { induction s as [|a s IH]; simpl; congruence. }
    rewrite E. clear E. unfold listcomp_post. split.
    - intros [L H].
      assert (N : forall n x, nth_error s n = Some x -> nth_error r n = Some (f x)).
      { intros n x Hn. assert (n < length s)%nat by (apply nth_error_Some; congruence).
        specialize (H (Z.of_nat n) x). unfold seq_elem in H. rewrite !vget_at_iff in H.
        unfold at_ in H. rewrite Nat2Z.id in H. apply H; [unfold vlen; lia|]. split; [lia|assumption]. }
      unfold vlen in L. apply Nat2Z.inj in L. clear H. revert r L N.
      induction s as [|a s IH]; intros [|b r] L N; simpl in *; try discriminate; [reflexivity|].
      f_equal.
      + specialize (N 0%nat a eq_refl). simpl in N. congruence.
      + apply IH; [congruence|]. intros n x Hn. apply (N (S n) x Hn).
    - intros ->. split; [unfold vlen; now rewrite map_length|].
      intros i x _ H. apply vget_at_iff in H. apply vget_at_iff. destruct H as [H0 H]. split; [assumption|].
      now apply map_nth_error.
  Qed.

  Lemma listcomp_filter_sound : forall (f : A -> B) p s,
    listcomp_filter_post (vlen s) (seq_elem s) f p (py_listcomp f p s).
  Proof.
    intros f p s. split; [apply py_listcomp_len|].
    intros i x _ H P. apply py_listcomp_in. exists x. split; [now apply seq_elem_in in H|auto].
  Qed.

  Lemma adds_some : forall (eq : B -> B -> bool) xs l, exists l', py_set_ops eq l (map SetAdd xs) = Some l'.
  Proof.
    intros eq xs. induction xs as [|x xs IH]; intro l; simpl; [now exists l|].
    destruct (py_mem eq l x); apply IH.
  Qed.

  Lemma flat_adds : forall xs : list B, flat_map set_arg (map SetAdd xs) = xs.
  Proof. induction xs; simpl; congruence. Qed.

  Lemma setcomp_sound : forall (eq : B -> B -> bool) (f : A -> B) p s,
    eq_is_id eq (fun y => In y (py_listcomp f p s)) ->
    exists l, py_setcomp eq f p s = Some l /\
      forall r, represents_set r l -> setcomp_post (vlen s) (seq_elem s) f p r.
  Proof.
    intros eq f p s HU. unfold py_setcomp. set (ys := py_listcomp f p s) in *.
    assert (G : forall xs l, (forall y, In y xs -> In y ys) -> (forall y, In y l -> In y ys) ->
      exists l', py_set_ops eq l (map SetAdd xs) = Some l' /\ forall y, In y l \/ In y xs -> In y l').
    { induction xs as [|x xs IH]; intros l Hx Hl; simpl.
      - exists l. split; [reflexivity|]. tauto.
      - pose proof (py_mem_in eq _ l x HU Hl (Hx x (or_introl eq_refl))) as M.
        destruct (py_mem eq l x) eqn:E.
        + destruct (IH l) as (l' & E' & H'); [intros y I; apply Hx; now right|assumption|].
          exists l'. split; [assumption|]. intros y [I|[<-|I]]; apply H'; auto. left. now apply M.
        + destruct (IH (l ++ [x])) as (l' & E' & H'); [intros y I; apply Hx; now right| |].
          { intros y I. apply in_app_or in I. destruct I as [I|[<-|[]]]; auto. apply Hx. now left. }
          exists l'. split; [assumption|]. intros y [I|[<-|I]]; apply H'; [left|left|now right]; apply in_or_app; simpl; auto. }
    destruct (G ys [] (fun y H => H)) as (l & E & H); [intros y []|].
    exists l. split; [assumption|]. intros r R i x _ Hx P. apply R, H. right.
    unfold ys. apply py_listcomp_in. exists x. split; [now apply seq_elem_in in Hx|auto].
  Qed.

  Lemma fold_keeps : forall (eq : B -> B -> bool) (U : B -> Prop) ops (d : list (B * C)), eq_is_id eq U ->
    NoDup (map fst d) -> (forall k, In k (map fst d) -> U k) -> (forall k, In k (map fst ops) -> U k) ->
    let d' := fold_left (fun d kv => py_dict_set eq d (fst kv) (snd kv)) ops d in
    NoDup (map fst d') /\ (forall k, In k (map fst d') -> U k) /\
    (forall k, In k (map fst d) \/ In k (map fst ops) -> In k (map fst d')) /\
    (forall k v, ~ In k (map fst ops) -> In (k, v) d -> In (k, v) d').
  Proof.
    intros eq U ops. induction ops as [|[k v] ops IH]; intros d HU Hn Hd Ho; simpl.
    - repeat split; auto. intros k [I|[]]. assumption.
    - simpl in Ho.
      assert (Uk : U k) by auto.
      destruct (py_dict_set_rel eq U d k v HU Hn Hd Uk) as [N1 M1].
      pose proof (py_dict_set_keys eq U d k v HU Hd Uk) as K1.
      assert (U1 : forall j, In j (map fst (py_dict_set eq d k v)) -> U j).
      { intros j I. apply K1 in I. destruct I as [I| ->]; auto. }
      destruct (IH (py_dict_set eq d k v) HU N1 U1 (fun j I => Ho j (or_intror I))) as (R1 & R2 & R3 & R4).
      split; [assumption|]. split; [assumption|]. split.
      + intros j [I|[<-|I]]; apply R3; [left|left|now right]; apply K1; auto.
      + intros j w Nj I. apply R4; [tauto|]. apply M1. right. split; [|assumption]. intros ->. apply Nj. now left.
  Qed.

  Lemma dictcomp_sound : forall (eq : B -> B -> bool) (key : A -> B) (val : A -> C) p s,
    eq_is_id eq (fun y => In y (py_listcomp key p s)) ->
    forall r, represents r (py_dictcomp eq key val p s) -> dictcomp_post (vlen s) (seq_elem s) key val p r.
  Proof.
    intros eq key val p s HU r R.
    set (U := fun y => In y (py_listcomp key p s)) in *.
    assert (MF : forall s0, map fst (py_listcomp (fun x => (key x, val x)) p s0) = py_listcomp key p s0).
    { induction s0 as [|a s0 IH]; simpl; [reflexivity|]. destruct (p a); simpl; congruence. }
    assert (APP : forall s1 s2, py_listcomp (fun x => (key x, val x)) p (s1 ++ s2) =
       py_listcomp (fun x => (key x, val x)) p s1 ++ py_listcomp (fun x => (key x, val x)) p s2).
    { induction s1 as [|a s1 IH]; intro s2; simpl; [reflexivity|]. destruct (p a); simpl; now rewrite IH. }
    intros i x Hi Hx P.
    assert (Ix : In (key x) (py_listcomp key p s)).
    { apply py_listcomp_in. exists x. split; [now apply seq_elem_in in Hx|auto]. }
    destruct (fold_keeps eq U (py_listcomp (fun x => (key x, val x)) p s) [] HU (NoDup_nil _) (fun k H => match H with end))
      as (F1 & F2 & F3 & F4).
    { intros k I. rewrite MF in I. exact I. }
    change (fold_left _ _ []) with (py_dictcomp eq key val p s) in *.
    split.
    - specialize (F3 (key x)). rewrite MF in F3. specialize (F3 (or_intror Ix)).
      apply in_map_iff in F3. destruct F3 as ([k v] & <- & I). apply R in I. unfold vdom. simpl. congruence.
    - intro NL. apply R.
      apply vget_at_iff in Hx. pose proof (at_split s i x Hx) as SP.
      unfold py_dictcomp, py_dict_run. rewrite SP, APP, fold_left_app. simpl. rewrite P. simpl.
      set (d1 := fold_left _ (py_listcomp (fun x => (key x, val x)) p (vtake i s)) []).
      assert (SUB1 : forall k, In k (py_listcomp key p (vtake i s)) -> U k).
      { intros k I. unfold U. apply py_listcomp_in in I. destruct I as (y & I & Py & ->).
        apply py_listcomp_in. exists y. split; [now apply in_take in I|auto]. }
      assert (SUB2 : forall k, In k (py_listcomp key p (vdrop (i + 1) s)) -> U k).
      { intros k I. unfold U. apply py_listcomp_in in I. destruct I as (y & I & Py & ->).
        apply py_listcomp_in. exists y. split; [now apply in_drop in I|auto]. }
      destruct (fold_keeps eq U (py_listcomp (fun x => (key x, val x)) p (vtake i s)) [] HU (NoDup_nil _) (fun k H => match H with end))
        as (D1 & D2 & _ & _).
      { intros k I. rewrite MF in I. auto. }
      fold d1 in D1, D2.
      destruct (py_dict_set_rel eq U d1 (key x) (val x) HU D1 D2 Ix) as [N1 M1].
      pose proof (py_dict_set_keys eq U d1 (key x) (val x) HU D2 Ix) as K1.
      destruct (fold_keeps eq U (py_listcomp (fun x => (key x, val x)) p (vdrop (i + 1) s)) (py_dict_set eq d1 (key x) (val x)) HU N1)
        as (_ & _ & _ & G).
      { intros k I. apply K1 in I. destruct I as [I| ->]; [now apply D2|exact Ix]. }
      { intros k I. rewrite MF in I. auto. }
      apply G.
      + rewrite MF. intro I. apply py_listcomp_in in I. destruct I as (y & I & Py & Ey).
        apply In_nth_error in I. destruct I as [n Hn].
        assert (AY : at_ s (i + 1 + Z.of_nat n) y).
        { destruct Hx as [H0 _]. split; [lia|]. unfold vdrop in Hn.
          replace (Z.to_nat (i + 1 + Z.of_nat n)) with (Z.to_nat (i + 1) + n)%nat by lia.
          revert Hn. generalize (Z.to_nat (i + 1)). clear. intro m. revert s.
          induction m; intros [|a s] Hn; simpl in *; try assumption; [destruct n; discriminate|auto]. }
        apply (NL (i + 1 + Z.of_nat n) y); auto.
        * destruct Hx as [H0 _]. destruct AY as [_ AY].
          assert (Z.to_nat (i + 1 + Z.of_nat n) < length s)%nat by (apply nth_error_Some; congruence).
          unfold vlen. lia.
        * now apply vget_at_iff.
        * split; [lia|assumption].
      + apply M1. left. auto.
  Qed.
End CompProofs.

(** * Pure containers *)
Section PureProofs.
  Context {T V : Type}.
  Implicit Types (s o : box T (list V)).

  Lemma pseq_getitem_ok : forall s i r, pseq_getitem_pre s i ->
    (pseq_getitem_post s i r <-> py_getitem (box_val s) i r).
  Proof.
    intros [t l] i r. unfold pseq_getitem_pre, pseq_getitem_post, pseq_len, py_getitem. cbn [box_val].
    change (@vlen V) with (@len V). intros [H1 H2].
    assert (B : - len l <= i < len l) by (unfold len in *; destruct (Z.lt_ge_cases i 0); lia).
    split.
    - intro E. split; [assumption|]. symmetry in E. destruct (0 <=? i) eqn:C.
      + replace (i <? 0) with false by lia. now apply vget_at_iff.
      + replace (i <? 0) with true by lia. rewrite Z.add_comm. now apply vget_at_iff.
    - intros [_ E]. symmetry. destruct (0 <=? i) eqn:C.
      + replace (i <? 0) with false in E by lia. now apply vget_at_iff.
      + replace (i <? 0) with true in E by lia. rewrite Z.add_comm. now apply vget_at_iff.
  Qed.

  Lemma at_vtake : forall (l : list V) n i x, at_ (vtake n l) i x <-> at_ l i x /\ i < n.
  Proof.
    intros l n i x. unfold at_, vtake. split.
    - intros [H0 H]. assert (L : (Z.to_nat i < length (firstn (Z.to_nat n) l))%nat) by (apply nth_error_Some; congruence).
      rewrite firstn_length in L. split; [split; [assumption|]|lia].
      rewrite <- (firstn_skipn (Z.to_nat n) l), nth_error_app1; [assumption|]. rewrite firstn_length. assumption.
    - intros [[H0 H] L]. split; [assumption|].
      assert (L' : (Z.to_nat i < length l)%nat) by (apply nth_error_Some; congruence).
      rewrite <- (firstn_skipn (Z.to_nat n) l) in H. rewrite nth_error_app1 in H; [assumption|].
      rewrite firstn_length. lia.
  Qed.

  Lemma at_vdrop : forall (l : list V) n i x, at_ (vdrop n l) i x <-> 0 <= i /\ at_ l (i + Z.max 0 n) x.
  Proof.
    intros l n i x. unfold at_, vdrop.
    assert (G : forall m k (l0 : list V), nth_error (skipn m l0) k = nth_error l0 (m + k)).
    { induction m; intros k [|a l0]; simpl; auto. destruct k; reflexivity. }
    rewrite G. split.
    - intros [H0 H]. split; [assumption|]. split; [lia|].
      replace (Z.to_nat (i + Z.max 0 n)) with (Z.to_nat n + Z.to_nat i)%nat by lia. assumption.
    - intros (H0 & _ & H). split; [assumption|].
      replace (Z.to_nat n + Z.to_nat i)%nat with (Z.to_nat (i + Z.max 0 n)) by lia. assumption.
  Qed.

  Lemma list_at_ext : forall l l' : list V, (forall i x, at_ l i x <-> at_ l' i x) -> l = l'.
  Proof.
    intros l l' H.
    assert (N : forall n, nth_error l n = nth_error l' n).
    { intro n. specialize (H (Z.of_nat n)). unfold at_ in H. rewrite Nat2Z.id in H.
      destruct (nth_error l n) as [x|].
      - symmetry. apply H. split; [lia|reflexivity].
      - destruct (nth_error l' n) as [y|]; [|reflexivity].
        assert (X : 0 <= Z.of_nat n /\ None = Some y) by (apply H; split; [lia|reflexivity]). destruct X. congruence. }
    revert l' H N. induction l as [|a l IH]; intros [|b l'] _ N; auto.
    - specialize (N 0%nat). discriminate.
    - specialize (N 0%nat). discriminate.
    - f_equal; [specialize (N 0%nat); simpl in N; congruence|].
      apply IH; [intros i x; unfold at_|intro n; apply (N (S n))].
      specialize (N (S (Z.to_nat i))). simpl in N. now rewrite N.
  Qed.

  Lemma pseq_take_ok : forall s n r,
    pseq_take_post s n r <-> box_type r = box_type s /\ spec_take (box_val s) n (box_val r).
  Proof.
    intros [t l] n [t' l']. unfold pseq_take_post, pseq_create_post, pseq_len, spec_take. cbn [box_type box_val].
    split.
    - intros [[-> ->] _]. split; [reflexivity|]. intros i x. apply at_vtake.
    - intros [-> H]. assert (l' = vtake n l).
      { apply list_at_ext. intros i x. rewrite H. symmetry. apply at_vtake. }
      subst l'. split; [auto|]. intros ->. f_equal. apply take_all. change (@vlen V) with (@len V). lia.
  Qed.

  Lemma pseq_drop_ok : forall s n r,
    pseq_drop_post s n r <-> box_type r = box_type s /\ spec_drop (box_val s) n (box_val r).
  Proof.
    intros [t l] n [t' l']. unfold pseq_drop_post, pseq_create_post, pseq_len, spec_drop. cbn [box_type box_val].
    split.
    - intros [[-> ->] _]. split; [reflexivity|]. intros i x. apply at_vdrop.
    - intros [-> H]. assert (l' = vdrop n l).
      { apply list_at_ext. intros i x. rewrite H. symmetry. apply at_vdrop. }
      subst l'. split; [auto|]. intros ->. reflexivity.
  Qed.

  Lemma at_app_iff : forall (a b : list V) i x,
    at_ (a ++ b) i x <-> at_ a i x \/ (len a <= i /\ at_ b (i - len a) x).
  Proof.
    intros a b i x. unfold at_, len. destruct (Z.lt_ge_cases i (Z.of_nat (length a))) as [L|L].
    - split.
      + intros [H0 H]. left. split; [assumption|]. rewrite nth_error_app1 in H by lia. assumption.
      + intros [[H0 H]|[H0 _]]; [|lia]. split; [assumption|]. rewrite nth_error_app1 by lia. assumption.
    - split.
      + intros [H0 H]. right. rewrite nth_error_app2 in H by lia. split; [lia|]. split; [lia|].
        replace (Z.to_nat (i - Z.of_nat (length a))) with (Z.to_nat i - length a)%nat by lia. assumption.
      + intros [[H0 H]|[H0 [H1 H]]].
        * assert (Z.to_nat i < length a)%nat by (apply nth_error_Some; congruence). lia.
        * split; [lia|]. rewrite nth_error_app2 by lia.
          replace (Z.to_nat i - length a)%nat with (Z.to_nat (i - Z.of_nat (length a))) by lia. assumption.
  Qed.

  Lemma pseq_update_ok : forall s k v r, pseq_update_pre s k ->
    (pseq_update_post s k v r <-> box_type r = box_type s /\ spec_update (box_val s) k v (box_val r)).
  Proof.
    intros [t l] k v [t' l'] [H1 H2]. unfold pseq_update_post, pseq_create_post, pseq_len, spec_update in *. cbn [box_type box_val] in *.
    change (@vlen V) with (@len V) in *.
    assert (U : forall i x, at_ (vupd l k v) i x <-> (i = k /\ x = v) \/ (i <> k /\ at_ l i x)).
    { intros i x. unfold vupd. rewrite at_app_iff. cbn [app].
      assert (Lt : len (vtake k l) = k) by (unfold len, vtake in *; rewrite firstn_length; lia).
      rewrite Lt, at_vtake. change (v :: vdrop (k + 1) l) with ([v] ++ vdrop (k + 1) l).
      rewrite at_app_iff, at_vdrop. change (len [v]) with 1.
      assert (S1 : at_ [v] (i - k) x <-> i = k /\ x = v).
      { unfold at_. split.
        - intros [A B]. assert (Z.to_nat (i - k) < 1)%nat by (change 1%nat with (length [v]); apply nth_error_Some; congruence).
          assert (i = k) by lia. subst i. rewrite Z.sub_diag in B. simpl in B. split; congruence.
        - intros [-> ->]. rewrite Z.sub_diag. split; [lia|reflexivity]. }
      rewrite S1. replace (i - k - 1 + Z.max 0 (k + 1)) with i by lia.
      split.
      - intros [[A B]|[A [[-> ->]|[B [D E]]]]]; [right; split; [lia|assumption]|now left|right; split; [lia|assumption]].
      - intros [[-> ->]|[A B]]; [right; split; [lia|]; now left|].
        destruct (Z.lt_ge_cases i k); [left; auto|]. right. split; [lia|]. right. split; [lia|]. split; [lia|assumption]. }
    split.
    - intros [-> ->]. split; [reflexivity|]. exact U.
    - intros [-> H]. split; [reflexivity|]. apply list_at_ext. intros i x. rewrite H. symmetry. apply U.
  Qed.

  Lemma pseq_add_ok : forall s o r,
    pseq_add_post s o r <-> box_type r = box_type s /\ py_concat (box_val s) (box_val o) (box_val r).
  Proof.
    intros [t l] [t0 l0] [t' l']. unfold pseq_add_post, pseq_create_post, py_concat. cbn [box_type box_val].
    assert (A0 : forall (a : list V) i y, at_ a i y -> 0 <= i < len a).
    { intros a i y [H0 H]. assert (Z.to_nat i < length a)%nat by (apply nth_error_Some; congruence). unfold len. lia. }
    split.
    - intros [-> ->]. split; [reflexivity|]. split; [unfold len; rewrite app_length; lia|]. split.
      + intros i y L. rewrite at_app_iff. split; [intros [?|[? _]]; [assumption|lia]|now left].
      + intros i y L. rewrite at_app_iff. replace (len l + i - len l) with i by lia. split.
        * intros [H|[_ H]]; [|assumption]. apply A0 in H. lia.
        * intro H. right. split; [lia|assumption].
    - intros (-> & L & H1 & H2). split; [reflexivity|]. apply list_at_ext. intros i x. rewrite at_app_iff.
      destruct (Z.lt_ge_cases i (len l)) as [C|C].
      + rewrite (H1 i x C). split; [now left|]. intros [?|[? _]]; [assumption|lia].
      + specialize (H2 (i - len l) x). replace (len l + (i - len l)) with i in H2 by lia. rewrite H2 by lia.
        split; [intro; right; auto|]. intros [H|[_ H]]; [|assumption]. apply A0 in H. lia.
  Qed.

  Lemma box_ext : forall P (s o : box T P), box_type s = box_type o -> (box_val s = box_val o <-> s = o).
  Proof. intros P [t p] [t' p']. simpl. intros ->. split; intro H; [now subst|now inversion H]. Qed.

  Lemma pseq_eq_ok : forall s o b, pseq_eq_pre s o -> (pseq_eq_post s o b <-> (b = true <-> box_val s = box_val o)).
  Proof.
    intros s o b H. unfold pseq_eq_post. split; [tauto|]. intro E. split; [assumption|]. intro B. apply E in B.
    now apply box_ext in B.
  Qed.

  (** Sets *)
  Lemma pset_literal_card : forall (eq_dec : forall x y : V, {x = y} + {x <> y}) (t : T) (args : list V) r n,
    pset_literal_post t args r -> (pset_len_post r n <-> n = len (nodup eq_dec args)).
  Proof.
    intros eq_dec t args [t' p] n [_ H]. unfold pset_len_post. cbn [box_val] in *.
    apply vcard_list; [apply NoDup_nodup|]. intro x. rewrite H. symmetry. apply nodup_In.
  Qed.

  Variable eq_dec : forall x y : V, {x = y} + {x <> y}.

  Lemma mcard_ok : forall m l n, (forall x, m x = Z.of_nat (count_occ eq_dec l x)) -> (mcard eq_dec m n <-> n = len l).
  Proof.
    intros m l n H. split.
    - intros (l' & H' & <-). unfold vlen, len. f_equal. apply Permutation_length.
      rewrite (Permutation_count_occ eq_dec). intro x. specialize (H x). specialize (H' x). lia.
    - intros ->. exists l. split; [assumption|reflexivity].
  Qed.

  Lemma toMS_unique : forall toMS, toMS_axioms eq_dec toMS <->
    forall (l : list V) x, toMS l x = Z.of_nat (count_occ eq_dec l x).
  Proof.
    intro toMS. split.
    - intros (A1 & A2 & A3 & _) l x. induction l as [|a l IH].
      + apply A1.
      + change (a :: l) with ([a] ++ l) at 1. rewrite A3, A2, IH. cbn [count_occ].
        destruct (eq_dec a x), (eq_dec x a); subst; try congruence; lia.
    - intro H. split; [|split; [|split]].
      + intro x. now rewrite H.
      + intros t x. rewrite H. cbn [count_occ]. destruct (eq_dec t x), (eq_dec x t); subst; try congruence; reflexivity.
      + intros s1 s2 x. rewrite !H, count_occ_app. lia.
      + intro s. apply (mcard_ok (toMS s) s); [apply H|reflexivity].
  Qed.

  Lemma mset_sub_ok : forall a b x,
    mset_sub (mset_literal eq_dec a) (mset_literal eq_dec b) x =
    Z.of_nat (count_occ eq_dec a x - count_occ eq_dec b x).
  Proof. intros a b x. unfold mset_sub, mset_literal. lia. Qed.

  Lemma mset_add_ok : forall a b x,
    mset_add (mset_literal eq_dec a) (mset_literal eq_dec b) x = Z.of_nat (count_occ eq_dec (a ++ b) x).
  Proof. intros a b x. unfold mset_add, mset_literal. rewrite count_occ_app. lia. Qed.

  Lemma mset_sil_seq_ok : forall a, pmset_sil_seq_post eq_dec (mset_literal eq_dec a) a.
  Proof.
    intro a. split.
    - intro x. unfold mset_literal. rewrite (count_occ_In eq_dec). lia.
    - apply (mcard_ok _ a); [reflexivity|reflexivity].
  Qed.
End PureProofs.

(** * Quantifiers *)
Section QuantProofs.
  Context {V St : Type}.
  Implicit Types (ds : list (domain V St)).

  Lemma contains_ranges : forall old cur (d : domain V St) x, contains_expr old cur d x <-> ranges_over old cur d x.
  Proof.
    intros old cur [t|e|e] x; simpl; [tauto| |]; split; intro H; try (now apply In_nth_error in H);
      destruct H as [i H]; now apply nth_error_In in H.
  Qed.

  Lemma lhs_forall2 : forall old cur ds xs lhs, length xs = length ds ->
    (domains_lhs old cur lhs ds xs <-> lhs /\ Forall2 (ranges_over old cur) ds xs).
  Proof.
    intros old cur ds. induction ds as [|d ds IH]; intros [|x xs] lhs L; simpl in *; try discriminate.
    - split; [intro H; split; [assumption|constructor]|tauto].
    - rewrite IH by congruence. rewrite contains_ranges. split.
      + intros [[H1 H2] H3]. split; [assumption|]. now constructor.
      + intros [H1 H2]. inversion H2; subst. auto.
  Qed.

  Lemma py_all_forall2 : forall old cur ds body,
    py_all old cur ds body <-> forall xs, Forall2 (ranges_over old cur) ds xs -> body xs.
  Proof.
    intros old cur ds. induction ds as [|d ds IH]; intro body; simpl.
    - split; [intros H xs F; now inversion F|]. intro H. apply H. constructor.
    - split.
      + intros H xs F. inversion F as [|? x ? xs' R F']; subst. specialize (H x R).
        rewrite IH in H. now apply H.
      + intros H x R. rewrite IH. intros xs F. apply H. now constructor.
  Qed.

  Lemma forall_ok : forall old cur ds (last : V -> Prop) body,
    (forall d x, nth_error ds (length ds - 1) = Some d -> ranges_over old cur d x -> last x) ->
    (forall_holds old cur ds last body <-> py_all old cur ds body).
  Proof.
    intros old cur ds last body HT. rewrite py_all_forall2. unfold forall_holds. split.
    - intros H xs F. assert (L : length xs = length ds) by (clear -F; induction F; simpl; congruence).
      apply H; [assumption| |apply lhs_forall2; auto].
      intros x Hx. destruct (nth_error ds (length ds - 1)) as [d|] eqn:E.
      + apply (HT d x eq_refl). clear -F E Hx. revert E Hx. generalize (length ds - 1)%nat. intro n. revert n.
        induction F as [|d0 x0 ds xs R F IH]; intros [|n] E Hx; simpl in *; try discriminate; [congruence|eauto].
      + apply nth_error_None in E. assert (length ds <> 0)%nat.
        { intro Z. rewrite Z in L. destruct xs; [|discriminate]. rewrite Z in Hx. discriminate. }
        lia.
    - intros H xs L _ D. apply H. now apply lhs_forall2 in D.
  Qed.

  Lemma exists_ok : forall old cur (d : domain V St) (t : V -> Prop) body, (forall x, ranges_over old cur d x -> t x) ->
    (exists_holds old cur d t body <-> exists x, ranges_over old cur d x /\ body x).
  Proof.
    intros old cur d t body HT. unfold exists_holds. split; intros (x & H).
    - exists x. rewrite <- contains_ranges. tauto.
    - exists x. rewrite contains_ranges. destruct H. auto.
  Qed.
End QuantProofs.

Lemma c13_iterator : forall V (xs : list V),
  (forall it, iter_init_post xs it <-> iter_at xs 0 false it) /\
  (forall p it, iter_at xs p false it -> p < len xs -> forall x err it',
     next_post it x err it' <-> err = false /\ at_ xs p x /\ iter_at xs (p + 1) false it') /\
  (forall e it, iter_at xs (len xs) e it -> forall x err it',
     next_post it x err it' <->
     err = true /\ iter_at xs (len xs) true it' /\ (xs <> [] -> at_ xs (len xs - 1) x)).
Proof. intros V xs. split; [apply iter_start|]. split; [apply next_more|apply next_end]. Qed.

Lemma c40_pseq : forall T V (s o : box T (list V)),
  (forall i x, pseq_getitem_pre s i -> (pseq_getitem_post s i x <-> py_getitem (box_val s) i x)) /\
  (forall n r, pseq_take_post s n r <-> box_type r = box_type s /\ spec_take (box_val s) n (box_val r)) /\
  (forall n r, pseq_drop_post s n r <-> box_type r = box_type s /\ spec_drop (box_val s) n (box_val r)) /\
  (forall k v r, pseq_update_pre s k ->
     (pseq_update_post s k v r <-> box_type r = box_type s /\ spec_update (box_val s) k v (box_val r))) /\
  (forall r, pseq_add_post s o r <-> box_type r = box_type s /\ py_concat (box_val s) (box_val o) (box_val r)) /\
  (forall b, pseq_eq_pre s o -> (pseq_eq_post s o b <-> (b = true <-> box_val s = box_val o))).
Proof.
  intros T V s o. split; [intros; now apply pseq_getitem_ok|]. split; [apply pseq_take_ok|].
  split; [apply pseq_drop_ok|]. split; [intros; now apply pseq_update_ok|].
  split; [apply pseq_add_ok|intros; now apply pseq_eq_ok].
Qed.

Lemma c40_pseq_total : forall T V (s o : box T (list V)) n v,
  (exists r, pseq_take_post s n r) /\ (exists r, pseq_drop_post s n r) /\
  (exists r, pseq_update_post s n v r) /\ (exists r, pseq_add_post s o r) /\
  (pseq_getitem_pre s n -> exists x, pseq_getitem_post s n x).
Proof.
  intros T V [t l] [t' l'] n v. split; [|split; [|split; [|split]]].
  - exists {| box_type := t; box_val := vtake n l |}. split; [split; reflexivity|]. unfold pseq_len; cbn.
    intros ->. f_equal. apply take_all. apply Z.le_refl.
  - exists {| box_type := t; box_val := vdrop n l |}. split; [split; reflexivity|]. intros ->. reflexivity.
  - exists {| box_type := t; box_val := vupd l n v |}. split; reflexivity.
  - exists {| box_type := t; box_val := l ++ l' |}. split; reflexivity.
  - unfold pseq_getitem_pre, pseq_getitem_post, pseq_len. cbn [box_val]. intros [H1 H2].
    assert (G : forall i, 0 <= i < vlen l -> exists x, Some x = vget l i).
    { intros i Hi. unfold vget. replace (i <? 0) with false by lia.
      destruct (nth_error l (Z.to_nat i)) as [x|] eqn:E; [now exists x|].
      apply nth_error_None in E. unfold vlen in Hi. lia. }
    destruct (0 <=? n) eqn:C; apply G; unfold vlen in *; lia.
Qed.

Lemma c40_pset : forall T V, (forall x y : V, {x = y} + {x <> y}) ->
  forall (t : T) (a b : list V) (s o : box T (vset V)),
  pset_literal_post t a s -> pset_literal_post t b o ->
  (forall x r, pset_contains_post s x r <-> (r = true <-> In x a)) /\
  (forall l n, NoDup l -> (forall x, In x l <-> In x a) -> (pset_len_post s n <-> n = len l)) /\
  (forall r, pset_add_post s o r -> forall x, box_val r x <-> In x a \/ In x b) /\
  (forall r, pset_sub_post s o r -> forall x, box_val r x <-> In x a /\ ~ In x b) /\
  (forall l, pset_sil_seq_post s l <-> NoDup l /\ forall x, In x l <-> In x a).
Proof.
  intros T V dec t a b s o [_ Hs] [_ Ho]. split; [|split; [|split; [|split]]].
  - intros x r. unfold pset_contains_post. rewrite Hs. tauto.
  - intros l n N M. apply vcard_list; [assumption|]. intro x. rewrite Hs, M. tauto.
  - intros r [_ H] x. rewrite H, Hs, Ho. tauto.
  - intros r [_ H] x. rewrite H, Hs, Ho. tauto.
  - intro l. unfold pset_sil_seq_post.
    assert (C : forall n, vcard (box_val s) n <-> n = len (nodup dec a)).
    { intro n. apply vcard_list; [apply NoDup_nodup|]. intro x. rewrite Hs. symmetry. apply nodup_In. }
    rewrite C. split.
    + intros [M L]. assert (M' : forall x, In x l <-> In x a) by (intro x; rewrite M; apply Hs).
      split; [|assumption]. unfold vlen, len in L. apply (NoDup_incl_NoDup (NoDup_nodup dec a)); [lia|].
      intros x I. apply nodup_In in I. now apply M'.
    + intros [N M]. split; [intro x; rewrite M; symmetry; apply Hs|].
      unfold vlen, len. f_equal. apply Permutation_length, NoDup_Permutation; [assumption|apply NoDup_nodup|].
      intro x. rewrite M. symmetry. apply nodup_In.
Qed.

Lemma c40_pmultiset : forall V (dec : forall x y : V, {x = y} + {x <> y}) (a b : list V),
  (forall x, mset_add (mset_literal dec a) (mset_literal dec b) x = Z.of_nat (count_occ dec (a ++ b) x)) /\
  (forall x, mset_sub (mset_literal dec a) (mset_literal dec b) x =
             Z.of_nat (count_occ dec a x - count_occ dec b x)) /\
  (forall n, mcard dec (mset_literal dec a) n <-> n = len a) /\
  pmset_sil_seq_post dec (mset_literal dec a) a.
Proof.
  intros V dec a b. split; [apply mset_add_ok|]. split; [apply mset_sub_ok|]. split; [|apply mset_sil_seq_ok].
  intro n. apply mcard_ok. reflexivity.
Qed.
