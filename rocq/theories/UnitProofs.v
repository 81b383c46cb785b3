(** Proofs about the members of the verified program. *)
From Coq Require Import Bool Arith List NArith Lia.
From Verif Require Import NamesModel NamesProofs ClsModel ClsSpec ClsProofs UnitModel UnitSpec.
Import ListNotations.
Local Open Scope nat_scope.

Notation fresh := (get_fresh_name pystring pystring_eqb py_suffix Owner).

Lemma fresh_total tbl w : exists s, fresh tbl w = Some (s, s :: tbl) /\ ~ In s tbl.
Proof. apply get_fresh_total; [exact pystring_eqb_spec | exact py_suffix_inj]. Qed.

Lemma fresh_free tbl w : ~ In w tbl -> fresh tbl w = Some (w, w :: tbl).
Proof. apply get_fresh_keeps; exact pystring_eqb_spec. Qed.

Lemma fresh_loop_suffix fuel tbl w c s :
  fresh_loop pystring pystring_eqb py_suffix fuel Owner tbl w c = Some s -> exists k, s = py_suffix w k.
Proof.
  revert c; induction fuel as [|f IH]; cbn [fresh_loop]; intros c H; [discriminate|].
  destruct (contains_name _ _ _ _ _); [eauto|]. injection H as <-. eauto.
Qed.
Lemma fresh_cases tbl w s tbl' : fresh tbl w = Some (s, tbl') -> s = w \/ exists k, s = py_suffix w k.
Proof.
  unfold get_fresh_name. destruct (contains_name _ _ _ _ _).
  - destruct (fresh_loop _ _ _ _ _ _ _ _) as [r|] eqn:E; [|discriminate]. intros H; injection H as <- _.
    right. eapply fresh_loop_suffix; eauto.
  - intros H; injection H as <- _. auto.
Qed.

Lemma main_no_underscore : ~ In 95%N str_main.
Proof. unfold str_main. intros H. repeat (destruct H as [H|H]; [discriminate|]). exact H. Qed.
Lemma suffix_underscore w k : In 95%N (py_suffix w k).
Proof. unfold py_suffix. apply in_or_app. right. left. reflexivity. Qed.

Lemma assign_total P us : forall tbl u, In u us -> exists s, In (u, s) (assign P us tbl).
Proof.
  induction us as [|v us IH]; intros tbl u [].
  - subst. cbn. destruct (fresh_total tbl (wish P u)) as [s [E _]]. rewrite E. exists s. left. reflexivity.
  - cbn. destruct (fresh_total tbl (wish P v)) as [s [E _]]. rewrite E.
    destruct (IH (s :: tbl) u H) as [t Ht]. exists t. right. exact Ht.
Qed.
Lemma assign_in P us : forall tbl u s, In (u, s) (assign P us tbl) -> In u us.
Proof.
  induction us as [|v us IH]; intros tbl u s; [intros []|]. cbn.
  destruct (fresh_total tbl (wish P v)) as [t [E _]]. rewrite E.
  intros [H|H]; [injection H as -> _; left; reflexivity | right; eauto].
Qed.
Lemma assign_fresh P us : forall tbl, NoDup (map snd (assign P us tbl)) /\
  forall p, In p (assign P us tbl) -> ~ In (snd p) tbl.
Proof.
  induction us as [|v us IH]; intros tbl; [cbn; split; [constructor | intros p []]|].
  cbn. destruct (fresh_total tbl (wish P v)) as [s [E Hs]]. rewrite E.
  destruct (IH (s :: tbl)) as [N F]. split.
  - cbn. constructor; [|exact N]. intros H. apply in_map_iff in H. destruct H as [p [Ep Hp]].
    apply (F p Hp). left. congruence.
  - intros p [<-|Hp]; [exact Hs|]. intros H. apply (F p Hp). right. exact H.
Qed.
Lemma assign_main P us : forall tbl u, In (u, str_main) (assign P us tbl) -> wish P u = str_main /\ ~ In str_main tbl.
Proof.
  induction us as [|v us IH]; intros tbl u; [intros []|]. cbn.
  destruct (fresh_total tbl (wish P v)) as [t [E Ht]]. rewrite E.
  intros [H|H].
  - injection H as -> ->. split; [|exact Ht]. destruct (fresh_cases _ _ _ _ E) as [H|[k H]]; [auto|].
    exfalso. apply main_no_underscore. rewrite H. apply suffix_underscore.
  - apply IH in H. destruct H as [Hw Hn]. split; [exact Hw|]. intros Hin. apply Hn. right. exact Hin.
Qed.
Lemma assign_gives_main P us : forall tbl u, In u us -> wish P u = str_main -> ~ In str_main tbl ->
  exists v, In (v, str_main) (assign P us tbl).
Proof.
  induction us as [|v us IH]; intros tbl u Hu Hw Hn; [destruct Hu|]. cbn.
  destruct (fresh_total tbl (wish P v)) as [t [E Ht]]. rewrite E.
  destruct (list_eq_dec N.eq_dec t str_main) as [->|D]; [exists v; left; reflexivity|].
  destruct Hu as [->|Hu].
  - exfalso. apply D. rewrite Hw, fresh_free in E by exact Hn. congruence.
  - destruct (IH (t :: tbl) u Hu Hw) as [v' Hv'].
    + intros [H|H]; [exact (D H) | exact (Hn H)].
    + exists v'. right. exact Hv'.
Qed.
Lemma assign_app P us vs : forall tbl, exists tbl', assign P (us ++ vs) tbl = assign P us tbl ++ assign P vs tbl'.
Proof.
  induction us as [|v us IH]; intros tbl; [exists tbl; reflexivity|]. cbn.
  destruct (fresh_total tbl (wish P v)) as [t [E Ht]]. rewrite E.
  destruct (IH (t :: tbl)) as [tbl' ->]. exists tbl'. reflexivity.
Qed.

Lemma nodup_snd {A B} (l : list (A * B)) a b c : NoDup (map snd l) -> In (a, c) l -> In (b, c) l -> a = b.
Proof.
  induction l as [|[x y] l IH]; cbn; [intros _ []|]. intros N Ha Hb. inversion N as [|? ? N1 N2]; subst.
  destruct Ha as [Ha|Ha], Hb as [Hb|Hb].
  - congruence.
  - injection Ha as -> ->. exfalso. apply N1. apply in_map_iff. exists (b, c). auto.
  - injection Hb as -> ->. exfalso. apply N1. apply in_map_iff. exists (a, c). auto.
  - eauto.
Qed.

Lemma name_of_in P sels u s : name_of P sels u = Some s -> In (u, s) (assignment P sels).
Proof.
  unfold name_of. destruct (find _ _) as [[v t]|] eqn:E; [|discriminate]. intros H; injection H as <-.
  apply find_some in E. destruct E as [E1 E2]. cbn [fst] in E2. destruct (piece_eq_dec u v); [subst; exact E1 | discriminate].
Qed.
Lemma name_of_total P sels u : In u (requests_of P sels) -> exists s, name_of P sels u = Some s.
Proof.
  intros H. destruct (assign_total P (requests_of P sels) (p_taken P) u H) as [s Hs].
  unfold name_of. destruct (find _ _) as [[v t]|] eqn:E; [eauto|].
  eapply find_none in E; [|exact Hs]. cbn in E. destruct (piece_eq_dec u u); congruence.
Qed.
Lemma names_of_in P sels us s : In s (names_of P sels us) <-> exists u, In u us /\ name_of P sels u = Some s.
Proof.
  unfold names_of. rewrite in_flat_map. split.
  - intros [u [Hu Hs]]. exists u. split; [exact Hu|]. destruct (name_of P sels u); [|destruct Hs].
    destruct Hs as [->|[]]. reflexivity.
  - intros [u [Hu Hs]]. exists u. split; [exact Hu|]. rewrite Hs. left. reflexivity.
Qed.

Lemma existsb_piece u l : existsb (fun v => if piece_eq_dec u v then true else false) l = true <-> In u l.
Proof.
  rewrite existsb_exists. split.
  - intros [v [Hv E]]. destruct (piece_eq_dec u v); [subst; exact Hv | discriminate].
  - intros H. exists u. split; [exact H|]. destruct (piece_eq_dec u u); congruence.
Qed.
Lemma existsb_str s l : existsb (pystring_eqb s) l = true <-> In s l.
Proof.
  rewrite existsb_exists. split.
  - intros [v [Hv E]]. apply pystring_eqb_spec in E. subst. exact Hv.
  - intros H. exists s. split; [exact H|]. apply pystring_eqb_spec. reflexivity.
Qed.
Lemma in_program_spec P sels u : in_program P sels u = true <->
  In u (emitted P sels) /\ exists s, name_of P sels u = Some s /\ In s (wanted P sels).
Proof.
  unfold in_program. rewrite andb_true_iff, existsb_piece. split.
  - intros [H1 H2]. split; [exact H1|]. destruct (name_of P sels u) as [s|]; [|discriminate].
    exists s. split; [reflexivity|]. apply existsb_str. exact H2.
  - intros [H1 [s [-> H2]]]. split; [exact H1|]. apply existsb_str. exact H2.
Qed.

Lemma indexed_in P i m : In (i, m) (indexed P) <-> module_at P i m.
Proof.
  unfold indexed, module_at. generalize (p_modules P) as l. intros l.
  assert (G : forall k, In (i, m) (combine (seq k (length l)) l) <-> k <= i /\ nth_error l (i - k) = Some m).
  { induction l as [|a l IH]; intros k; cbn [length seq combine].
    - split; [intros [] | intros [_ H]; destruct (i - k); discriminate].
    - cbn [In]. rewrite IH. split.
      + intros [H|[H1 H2]].
        * injection H as -> ->. split; [lia|]. rewrite Nat.sub_diag. reflexivity.
        * split; [lia|]. replace (i - k) with (S (i - S k)) by lia. exact H2.
      + intros [H1 H2]. destruct (Nat.eq_dec k i) as [->|D].
        * left. rewrite Nat.sub_diag in H2. cbn in H2. congruence.
        * right. split; [lia|]. replace (i - k) with (S (i - S k)) in H2 by lia. exact H2. }
  rewrite G, Nat.sub_0_r. split; [intros [_ H]; exact H | intros H; split; [lia | exact H]].
Qed.

Lemma flat_indexed {A} (f : nat * modul -> list A) P i m a :
  module_at P i m -> In a (f (i, m)) -> In a (flat_map f (indexed P)).
Proof. intros Hm Ha. apply in_flat_map. exists (i, m). split; [apply indexed_in; exact Hm | exact Ha]. Qed.

(** Membership in nested lists. *)
Ltac inapp := repeat rewrite in_app_iff.

Lemma in_filter_neg (g : nat -> bool) x l : In x l -> g x = false -> In x (filter (fun x => negb (g x)) l).
Proof. intros H E. apply filter_In. rewrite E. auto. Qed.

Section Complete.
Variable n : nat.
Variable P : prog.
Hypothesis W : wf_prog n P.

Lemma own_some c : own_class P c -> some_class P c.
Proof. intros [i [m [Hm [_ Hc]]]]. exists i, m. auto. Qed.
Lemma all_methods_f_spec fuel c x : c < n -> c < fuel ->
  (In x (all_methods_f fuel (p_tb P) c) <-> exists d, inherits (p_tb P) c d /\ In x (c_methods (p_tb P d))).
Proof.
  revert c; induction fuel as [|f IH]; intros c Hc Hf; [lia|]. cbn [all_methods_f]. rewrite in_app_iff.
  destruct (superclass (p_tb P) c) as [p|] eqn:E.
  - assert (p < c) by (apply (super_lt n (p_tb P) (wfp_table n P W)); assumption). rewrite IH by lia. split.
    + intros [[d [Hd Hx]]|Hx]; [exists d; split; [eapply inh_step; eauto | exact Hx] | exists c; split; [constructor | exact Hx]].
    + intros [d [Hd Hx]]. inversion Hd as [|? p' ? Hp Hd']; subst; [right; exact Hx|].
      left. exists d. replace p with p' by congruence. auto.
  - split.
    + intros [[]|Hx]. exists c. split; [constructor | exact Hx].
    + intros [d [Hd Hx]]. inversion Hd as [|? p' ? Hp Hd']; subst; [right; exact Hx | congruence].
Qed.

Lemma pred_root_f_spec fuel c r x : c < n -> c <= fuel -> family_of P x c r -> pred_root_f fuel P c x = r.
Proof.
  intros Hc Hf H. revert fuel Hf. induction H as [c Hr|c p r Hp Hx H IH]; intros fuel Hf.
  - destruct fuel as [|f]; [reflexivity|]. cbn. unfold pred_overrides.
    destruct (superclass (p_tb P) c) as [p|] eqn:E; [|reflexivity].
    destruct (mem x (p_preds P p)) eqn:M; [|reflexivity]. apply mem_In in M. exfalso. eapply Hr; eauto.
  - assert (p < c) by (apply (super_lt n (p_tb P) (wfp_table n P W)); assumption).
    destruct fuel as [|f]; [lia|]. cbn. unfold pred_overrides. rewrite Hp.
    apply mem_In in Hx. rewrite Hx. apply IH; lia.
Qed.
Lemma pred_root_spec c r x : c < n -> family_of P x c r -> pred_root P c x = r.
Proof. intros Hc. apply pred_root_f_spec; auto. Qed.

Lemma no_adt_method c x : In x (c_methods (p_tb P c)) -> p_adt P c = false.
Proof. intros H. destruct (p_adt P c) eqn:E; [|reflexivity]. apply (wfp_adt n P W) in E. destruct E as (_ & E & _). rewrite E in H. destruct H. Qed.
Lemma no_adt_function c x : In x (c_functions (p_tb P c)) -> p_adt P c = false.
Proof. intros H. destruct (p_adt P c) eqn:E; [|reflexivity]. apply (wfp_adt n P W) in E. destruct E as (E & _). rewrite E in H. destruct H. Qed.
Lemma no_adt_prop c p : In p (p_props P c) -> p_adt P c = false.
Proof. intros H. destruct (p_adt P c) eqn:E; [|reflexivity]. apply (wfp_adt n P W) in E. destruct E as (_ & _ & _ & _ & E). rewrite E in H. destruct H. Qed.
Lemma no_adt_pred c x : In x (p_preds P c) -> p_adt P c = false.
Proof. intros H. destruct (p_adt P c) eqn:E; [|reflexivity]. apply (wfp_adt n P W) in E. destruct E as (_ & _ & _ & E & _). rewrite E in H. destruct H. Qed.

(** ** What is emitted *)
Lemma emitted_module sels i m u : module_at P i m -> In u (module_pieces P sels (i, m)) -> In u (tracked_pieces P sels).
Proof. intros Hm Hu. unfold tracked_pieces. inapp. left. eapply flat_indexed; eauto. Qed.
Lemma module_class sels i m c u : In c (md_classes m) -> In u (class_pieces P sels c) -> In u (module_pieces P sels (i, m)).
Proof. intros Hc Hu. cbn [module_pieces]. inapp. right; right; right. apply in_flat_map. exists c. auto. Qed.

Lemma class_function sels c x : In x (c_functions (p_tb P c)) -> m_interface (p_info P (OClass c) x) = false ->
  In (UFunction (OClass c) x) (class_pieces P sels c).
Proof. intros H1 H2. unfold class_pieces. inapp. left. apply in_map. apply in_filter_neg; assumption. Qed.
Lemma class_method_in sels c x u : In x (c_methods (p_tb P c)) -> In u (method_pieces P c x) -> In u (class_pieces P sels c).
Proof. intros H1 H2. unfold class_pieces. inapp. right; left. apply in_flat_map. eauto. Qed.
Lemma class_static_in sels c x u : In x (c_static (p_tb P c)) -> In u (static_pieces P c x) -> In u (class_pieces P sels c).
Proof. intros H1 H2. unfold class_pieces. inapp. right; right; left. apply in_flat_map. eauto. Qed.
Lemma class_inherit_in sels c x u : In x (all_methods (p_tb P) c) -> In u (inherit_pieces P sels c x) -> In u (class_pieces P sels c).
Proof. intros H1 H2. unfold class_pieces. inapp. right; right; right. apply in_flat_map. eauto. Qed.

Lemma method_piece c x : has_body P (OClass c) x -> In (UMethod (OClass c) x) (method_pieces P c x).
Proof. intros [H1 H2]. unfold method_pieces. rewrite H1, H2. left. reflexivity. Qed.
Lemma overrides_some c d x : superclass (p_tb P) c = Some d -> defines (p_tb P) x d -> overrides (p_tb P) c x = Some d.
Proof.
  intros H1 H2. unfold overrides. rewrite H1. apply contents_defines in H2. apply mem_In in H2. rewrite H2. reflexivity.
Qed.
Lemma override_piece c d x : superclass (p_tb P) c = Some d -> defines (p_tb P) x d -> x <> p_init P ->
  has_body P (OClass c) x -> In (UOverride c x) (method_pieces P c x).
Proof.
  intros H1 H2 H3 [H4 H5]. unfold method_pieces. rewrite H4, H5, (overrides_some c d x H1 H2).
  apply Nat.eqb_neq in H3. rewrite H3. right; left. reflexivity.
Qed.
Lemma override_static c d x : superclass (p_tb P) c = Some d -> defines (p_tb P) x d -> In (UOverride c x) (static_pieces P c x).
Proof. intros H1 H2. unfold static_pieces. rewrite (overrides_some c d x H1 H2). right; left. reflexivity. Qed.
Lemma inherit_piece sels c d x : c < n -> nearest (p_tb P) (defines_method (p_tb P) x) c d -> d <> c -> x <> p_init P ->
  m_normal (p_info P (OClass d) x) = true -> m_interface (p_info P (OClass d) x) = false ->
  contract_only P sels (OClass d) x = false -> In (UInherit c d x) (inherit_pieces P sels c x).
Proof.
  intros Hc H1 H2 H3 H4 H5 H6. unfold inherit_pieces.
  apply (get_method_spec n (p_tb P) (wfp_table n P W)) in H1; [|exact Hc]. rewrite H1.
  apply Nat.eqb_neq in H2, H3. rewrite H2, H3, H4, H5, H6. left. reflexivity.
Qed.
Lemma all_methods_in c d x : c < n -> inherits (p_tb P) c d -> In x (c_methods (p_tb P d)) -> In x (all_methods (p_tb P) c).
Proof. intros Hc H1 H2. unfold all_methods. apply all_methods_f_spec; [exact Hc | lia | eauto]. Qed.

Lemma contract_none o x : m_imported (p_info P o x) = false -> m_declared (p_info P o x) = false -> contract_only P [] o x = false.
Proof. intros H1 H2. unfold contract_only. rewrite H1, H2. reflexivity. Qed.

Lemma prop_getter c x b : In (x, b) (p_props P c) -> In (UGetter c x) (prop_pieces P c).
Proof. intros H. unfold prop_pieces. apply in_flat_map. exists (x, b). split; [exact H|]. left. reflexivity. Qed.
Lemma prop_setter c x : In (x, true) (p_props P c) -> In (USetter c x) (prop_pieces P c).
Proof. intros H. unfold prop_pieces. apply in_flat_map. exists (x, true). split; [exact H|]. right; left. reflexivity. Qed.

(** ** The lists of names *)
Lemma requests_module sels i m u : module_at P i m -> In u (module_names P (i, m)) -> In u (requests_of P sels).
Proof. intros H1 H2. unfold requests_of. inapp. left. eapply flat_indexed; eauto. Qed.
Lemma names_class i m c u : In c (md_classes m) -> In u (class_names P c) -> In u (module_names P (i, m)).
Proof. intros H1 H2. cbn [module_names]. inapp. left. apply in_flat_map. eauto. Qed.
Lemma requests_check sels i m u : module_at P i m -> In u (module_pieces P sels (i, m)) -> is_check u = true -> In u (requests_of P sels).
Proof.
  intros H1 H2 H3. unfold requests_of. inapp. right; left. eapply flat_indexed; [exact H1|]. apply filter_In. auto.
Qed.
Lemma all_first sels i m u : module_at P i m -> In u (first_all P (i, m)) -> In u (all_pieces P sels).
Proof. intros H1 H2. unfold all_pieces. inapp. left. eapply flat_indexed; eauto. Qed.
Lemma all_second sels i m u : module_at P i m -> In u (second_all P sels (i, m)) -> In u (all_pieces P sels).
Proof. intros H1 H2. unfold all_pieces. inapp. right; left. eapply flat_indexed; eauto. Qed.
Lemma first_class i m c u : md_global m = false -> In c (md_classes m) -> p_adt P c = false ->
  In u (prop_pieces P c ++ map (UFunction (OClass c)) (c_functions (p_tb P c)) ++
        map (UMethod (OClass c)) (c_methods (p_tb P c)) ++ map (UFamily c) (p_preds P c)) ->
  In u (first_all P (i, m)).
Proof.
  intros Hg Hc Ha Hu. cbn [first_all]. rewrite Hg. inapp. right; right; right. apply in_flat_map. exists c.
  rewrite Ha. split; [exact Hc|]. right. exact Hu.
Qed.
Lemma second_check sels i m u : In u (module_pieces P sels (i, m)) -> is_check u = true -> In u (second_all P sels (i, m)).
Proof. intros H1 H2. unfold second_all. inapp. left. apply filter_In. auto. Qed.

Lemma program_intro u : In u (emitted P []) -> In u (requests_of P []) -> In u (all_pieces P []) -> in_program P [] u = true.
Proof.
  intros H1 H2 H3. apply in_program_spec. split; [exact H1|].
  destruct (name_of_total P [] u H2) as [s Hs]. exists s. split; [exact Hs|].
  unfold wanted. cbn [none_selected]. apply in_or_app. left. apply names_of_in. eauto.
Qed.

Lemma program_module i m u : module_at P i m -> In u (module_pieces P [] (i, m)) ->
  In u (module_names P (i, m)) -> In u (all_pieces P []) -> in_program P [] u = true.
Proof.
  intros H1 H2 H3 H4. apply program_intro; [|eapply requests_module; eauto | exact H4].
  unfold emitted. apply in_or_app. right. eapply emitted_module; eauto.
Qed.
Lemma program_check i m u : module_at P i m -> In u (module_pieces P [] (i, m)) -> is_check u = true -> in_program P [] u = true.
Proof.
  intros H1 H2 H3. apply program_intro; [|eapply requests_check; eauto | eapply all_second; eauto; apply second_check; auto].
  unfold emitted. apply in_or_app. right. eapply emitted_module; eauto.
Qed.
Lemma fam_in c x u : own_class P c -> In x (p_preds P c) -> In u (family_pieces P c x) -> In u (fam_pieces P).
Proof.
  intros [i [m [Hm [_ Hc]]]] Hx Hu. unfold fam_pieces. eapply flat_indexed; [exact Hm|]. cbn [snd].
  apply in_flat_map. exists c. split; [exact Hc|]. apply in_flat_map. eauto.
Qed.
Lemma family_of_pred x c r : family_of P x c r -> In x (p_preds P c) -> In x (p_preds P r).
Proof. intros H. induction H; auto. Qed.

(** The root of a family lives in some module. *)
Lemma complete_family c r x : own_class P c -> In x (p_preds P c) -> family_of P x c r ->
  (exists i m, module_at P i m /\ In r (md_classes m)) -> in_program P [] (UFamily r x) = true.
Proof.
  intros Hc Hx Hr [i [m [Hm Hrm]]]. assert (Hn : c < n) by (apply W; apply own_some; exact Hc).
  assert (Hf : In (UFamily r x) (family_pieces P c x)).
  { unfold family_pieces. rewrite (pred_root_spec c r x Hn Hr). left. reflexivity. }
  apply program_intro.
  - unfold emitted, tracked_pieces. inapp. right; right; right; right; right. eapply fam_in; eauto.
  - eapply requests_module; [exact Hm|]. eapply names_class; [exact Hrm|]. unfold class_names. right. inapp.
    right; right; left. apply in_map. eapply family_of_pred; eauto.
  - unfold all_pieces. inapp. right; right. eapply fam_in; eauto.
Qed.

Lemma family_some x c r : family_of P x c r -> some_class P c -> some_class P r.
Proof. intros H. induction H as [|c p r Hp _ _ IH]; [auto|]. intros Hc. apply IH. eapply (wfp_base n P W); eauto. Qed.

Lemma complete u : must_check P u -> in_program P [] u = true.
Proof.
  intros H; destruct H as [i m x Hm Hg Hx Hi|i m x Hm Hg Hx [Hi Hl]|i m x Hm Hg Hx|i m x Hm Hg Hx
    |c x Hc Hx Hi|c x Hc Hx Hb|c x Hc Hx|c x b Hc Hx|c x Hc Hx|c d x Hc Hs Hx Hd Hn Hb
    |c d x Hc Hnear Hdc Hx Hn Hnorm Hi Hdecl Himp|c r x Hc Hx Hr|c r x Hc Hx Hr Hdecl].
  - eapply program_module; [exact Hm | | |eapply all_first; [exact Hm|]].
    + cbn [module_pieces]. inapp. left. apply in_map. apply in_filter_neg; assumption.
    + cbn [module_names]. inapp. right; left. apply in_map. exact Hx.
    + cbn [first_all]. rewrite Hg. inapp. left. apply in_map. exact Hx.
  - eapply program_module; [exact Hm | | |eapply all_first; [exact Hm|]].
    + cbn [module_pieces]. inapp. right; left. apply in_map.
      apply (in_filter_neg (fun x => m_interface (p_info P (OModule i) x) || m_inline (p_info P (OModule i) x))); [exact Hx|].
      rewrite Hi, Hl. reflexivity.
    + cbn [module_names]. inapp. right; right; left. apply in_map. exact Hx.
    + cbn [first_all]. rewrite Hg. inapp. right; left. apply in_map. exact Hx.
  - eapply program_module; [exact Hm | | |eapply all_first; [exact Hm|]].
    + cbn [module_pieces]. inapp. right; right; left. apply in_map. exact Hx.
    + cbn [module_names]. inapp. right; right; right; left. apply in_map. exact Hx.
    + cbn [first_all]. rewrite Hg. inapp. right; right; left. apply in_map. exact Hx.
  - apply program_intro.
    + unfold emitted, tracked_pieces, op_pieces. inapp. right; right; right; right; left. eapply flat_indexed; [exact Hm|]. cbn. apply in_map. exact Hx.
    + eapply requests_module; [exact Hm|]. cbn [module_names]. inapp. right; right; right; right; right. apply in_map. exact Hx.
    + eapply all_second; [exact Hm|]. unfold second_all. cbn [fst snd]. rewrite Hg. inapp. right; right. apply in_map. exact Hx.
  - destruct Hc as [i [m [Hm [Hg Hc]]]]. eapply program_module; [exact Hm | eapply module_class; [exact Hc|] | eapply names_class; [exact Hc|] | eapply all_first; [exact Hm|]].
    + apply class_function; assumption.
    + unfold class_names. right. inapp. left. apply in_map. exact Hx.
    + eapply first_class; [exact Hg | exact Hc | eapply no_adt_function; eauto|]. inapp. right; left. apply in_map. exact Hx.
  - destruct Hc as [i [m [Hm [Hg Hc]]]]. eapply program_module; [exact Hm | eapply module_class; [exact Hc|] | eapply names_class; [exact Hc|] | eapply all_first; [exact Hm|]].
    + eapply class_method_in; [exact Hx|]. apply method_piece; assumption.
    + unfold class_names. right. inapp. right; left. apply in_map. apply in_or_app. left. exact Hx.
    + eapply first_class; [exact Hg | exact Hc | eapply no_adt_method; eauto|]. inapp. right; right; left. apply in_map. exact Hx.
  - destruct Hc as [i [m [Hm [Hg Hc]]]]. eapply program_module; [exact Hm | eapply module_class; [exact Hc|] | eapply names_class; [exact Hc|] | eapply all_second; [exact Hm|]].
    + eapply class_static_in; [exact Hx|]. left. reflexivity.
    + unfold class_names. right. inapp. right; left. apply in_map. apply in_or_app. right. exact Hx.
    + unfold second_all. cbn [fst snd]. rewrite Hg. inapp. right; left. apply in_flat_map. exists c. split; [exact Hc|]. apply in_map. exact Hx.
  - destruct Hc as [i [m [Hm [Hg Hc]]]]. assert (Ha : p_adt P c = false) by (eapply no_adt_prop; eauto).
    assert (Hp : In (UGetter c x) (prop_pieces P c)) by (eapply prop_getter; eauto). apply program_intro.
    + unfold emitted, field_pieces. apply in_or_app. left. eapply flat_indexed; [exact Hm|]. cbn [snd]. apply in_flat_map. exists c. rewrite Ha. auto.
    + eapply requests_module; [exact Hm|]. eapply names_class; [exact Hc|]. unfold class_names. right. inapp. right; right; right. exact Hp.
    + eapply all_first; [exact Hm|]. eapply first_class; [exact Hg | exact Hc | exact Ha|]. inapp. left. exact Hp.
  - destruct Hc as [i [m [Hm [Hg Hc]]]]. assert (Ha : p_adt P c = false) by (eapply no_adt_prop; eauto).
    assert (Hp : In (USetter c x) (prop_pieces P c)) by (eapply prop_setter; eauto). apply program_intro.
    + unfold emitted, field_pieces. apply in_or_app. left. eapply flat_indexed; [exact Hm|]. cbn [snd]. apply in_flat_map. exists c. rewrite Ha. auto.
    + eapply requests_module; [exact Hm|]. eapply names_class; [exact Hc|]. unfold class_names. right. inapp. right; right; right. exact Hp.
    + eapply all_first; [exact Hm|]. eapply first_class; [exact Hg | exact Hc | exact Ha|]. inapp. left. exact Hp.
  - destruct Hc as [i [m [Hm [Hg Hc]]]]. eapply program_check; [exact Hm | eapply module_class; [exact Hc|] | reflexivity].
    destruct Hx as [Hx|Hx].
    + eapply class_method_in; [exact Hx|]. eapply override_piece; eauto.
    + eapply class_static_in; [exact Hx|]. eapply override_static; eauto.
  - assert (Hcn : c < n) by (apply W; apply own_some; exact Hc).
    destruct Hc as [i [m [Hm [Hg Hc]]]]. eapply program_check; [exact Hm | eapply module_class; [exact Hc|] | reflexivity].
    eapply class_inherit_in; [eapply (all_methods_in c d); [exact Hcn | apply Hnear | exact Hx]|].
    apply inherit_piece; auto. apply contract_none; assumption.
  - eapply complete_family; eauto. eapply family_some; [exact Hr|]. apply own_some. exact Hc.
  - assert (Hcn : c < n) by (apply W; apply own_some; exact Hc).
    assert (Hf : In (UFrame r c x) (family_pieces P c x)).
    { unfold family_pieces. rewrite (pred_root_spec c r x Hcn Hr), Hdecl. right; left. reflexivity. }
    apply program_intro.
    + unfold emitted, tracked_pieces. inapp. right; right; right; right; right. eapply fam_in; eauto.
    + unfold requests_of. inapp. right; right; right. apply filter_In. split; [eapply fam_in; eauto | reflexivity].
    + unfold all_pieces. inapp. right; right. eapply fam_in; eauto.
Qed.

(** ** Dynamic dispatch *)
Lemma dispatch ok c d x : accepted_prog P [] ok -> runs_on P c d x ->
  m_imported (p_info P (OClass d) x) = false -> (x <> p_init P \/ d = c) -> ok d x c.
Proof.
  intros A (Hc & Hd & Hnear & Hx & Hb & Hnorm & Hdecl) Himp Hi.
  destruct (Nat.eq_dec d c) as [->|D].
  - apply (A (UMethod (OClass c) x)); [apply complete; apply mc_class_method; assumption|].
    cbn. apply contract_none; assumption.
  - apply (A (UInherit c d x)); [apply complete; eapply mc_inherit; eauto; [tauto | apply Hb]|]. reflexivity.
Qed.
End Complete.

(** ** The main method *)
Lemma member_underscore P c x : In 95%N (member_name P c x).
Proof. unfold member_name, underscore. apply in_or_app. right. left. reflexivity. Qed.

Lemma no_main_name w : In 95%N w -> w <> str_main.
Proof. intros H ->. exact (main_no_underscore H). Qed.

Lemma names_main P i m u : module_at P i m -> In u (module_names P (i, m)) -> wish P u = str_main -> top_level_name P str_main.
Proof.
  intros Hm Hu Hw. exists i, m. split; [exact Hm|]. cbn [module_names] in Hu. revert Hu. inapp.
  intros [H|H].
  - apply in_flat_map in H. destruct H as [c [Hc H]]. unfold class_names in H.
    destruct H as [<-|H]; [right; exists c; auto|]. exfalso.
    revert H. inapp. intros [H|[H|[H|H]]]; [| | |].
    + apply in_map_iff in H. destruct H as [x [<- _]]. eapply no_main_name; [|exact Hw]. apply member_underscore.
    + apply in_map_iff in H. destruct H as [x [<- _]]. eapply no_main_name; [|exact Hw]. apply member_underscore.
    + apply in_map_iff in H. destruct H as [x [<- _]]. eapply no_main_name; [|exact Hw]. apply member_underscore.
    + unfold prop_pieces in H. apply in_flat_map in H. destruct H as [[x b] [_ H]]. cbn [fst snd] in H.
      destruct H as [<-|H]; [eapply no_main_name; [|exact Hw]; apply in_or_app; left; apply member_underscore|].
      destruct b; [|destruct H]. destruct H as [<-|[]]. eapply no_main_name; [|exact Hw]. apply in_or_app; left; apply member_underscore.
  - left. repeat (destruct H as [H|H]); apply in_map_iff in H; destruct H as [x [<- Hx]]; exists x;
      (split; [inapp; tauto | exact Hw]).
Qed.
Lemma top_level_wish P : top_level_name P str_main -> exists i m u, module_at P i m /\ In u (module_names P (i, m)) /\ wish P u = str_main /\ u <> UMain.
Proof.
  intros [i [m [Hm [[x [Hx Hs]]|[c [Hc Hs]]]]]]; exists i, m.
  - revert Hx. inapp. intros [H|[H|[H|[H|H]]]].
    + exists (UFunction (OModule i) x). repeat split; auto; [|discriminate]. cbn. inapp. right; left. apply in_map. exact H.
    + exists (UMethod (OModule i) x). repeat split; auto; [|discriminate]. cbn. inapp. right; right; left. apply in_map. exact H.
    + exists (UPredicate i x). repeat split; auto; [|discriminate]. cbn. inapp. right; right; right; left. apply in_map. exact H.
    + exists (UVar i x). repeat split; auto; [|discriminate]. cbn. inapp. right; right; right; right; left. apply in_map. exact H.
    + exists (UOp i x). repeat split; auto; [|discriminate]. cbn. inapp. right; right; right; right; right. apply in_map. exact H.
  - exists (UClass c). repeat split; auto; [|discriminate]. cbn. inapp. left. apply in_flat_map. exists c. split; [exact Hc|]. left. reflexivity.
Qed.

Lemma prop_not_main P c : ~ In UMain (prop_pieces P c).
Proof.
  unfold prop_pieces. intros H. apply in_flat_map in H. destruct H as [[x b] [_ [H|H]]]; [discriminate|].
  cbn in H. destruct b; cbn in H; intuition discriminate.
Qed.
Lemma names_not_main P im : ~ In UMain (module_names P im).
Proof.
  destruct im as [i m]. cbn [module_names]. inapp. intros [H|H].
  - apply in_flat_map in H. destruct H as [c [_ [H|H]]]; [discriminate|]. revert H. inapp. intros [H|[H|[H|H]]];
      try (apply in_map_iff in H; destruct H as [? [? _]]; discriminate).
    exact (prop_not_main P c H).
  - repeat (destruct H as [H|H]); apply in_map_iff in H; destruct H as [? [? _]]; discriminate.
Qed.
Lemma fam_not_main P : ~ In UMain (fam_pieces P).
Proof.
  intros H. apply in_flat_map in H. destruct H as [im [_ H]]. apply in_flat_map in H. destruct H as [c [_ H]].
  apply in_flat_map in H. destruct H as [x [_ [H|H]]]; [discriminate|]. destruct (m_declared _); [destruct H|].
  destruct H as [H|[]]; discriminate.
Qed.
Lemma all_not_main P sels : ~ In UMain (all_pieces P sels).
Proof.
  unfold all_pieces. inapp. intros [H|[H|H]]; [| |exact (fam_not_main P H)].
  - apply in_flat_map in H. destruct H as [[i m] [_ H]]. cbn [first_all] in H. destruct (md_global m); [destruct H|].
    revert H. inapp. intros [H|[H|[H|H]]]; try (apply in_map_iff in H; destruct H as [? [? _]]; discriminate).
    apply in_flat_map in H. destruct H as [c [_ H]]. destruct (p_adt P c); [destruct H|].
    destruct H as [H|H]; [discriminate|]. revert H. inapp. intros [H|[H|[H|H]]];
      try (apply in_map_iff in H; destruct H as [? [? _]]; discriminate).
    exact (prop_not_main P c H).
  - apply in_flat_map in H. destruct H as [[i m] [_ H]]. unfold second_all in H. revert H. inapp. intros [H|H].
    + apply filter_In in H. destruct H as [_ H]. discriminate.
    + cbn [fst snd] in H. destruct (md_global m); [destruct H|]. revert H. inapp. intros [H|H].
      * apply in_flat_map in H. destruct H as [c [_ H]]. apply in_map_iff in H. destruct H as [? [? _]]; discriminate.
      * apply in_map_iff in H. destruct H as [? [? _]]; discriminate.
Qed.

Lemma check_underscore P u : is_check u = true -> In 95%N (wish P u).
Proof. destruct u; cbn; try discriminate; intros _; apply in_or_app; left; apply member_underscore. Qed.

Lemma emitted_main P sels : In UMain (emitted P sels) <-> p_ignore P = false.
Proof.
  unfold emitted, tracked_pieces. inapp. split.
  - intros [H|[H|[H|[H|[H|H]]]]].
    + unfold field_pieces in H. apply in_flat_map in H. destruct H as [[i m] [_ H]]. apply in_flat_map in H. destruct H as [c [_ H]].
      destruct (p_adt P c); [destruct H|]. exfalso. exact (prop_not_main P c H).
    + apply in_flat_map in H. destruct H as [[i m] [_ H]]. cbn [module_pieces] in H. revert H. inapp.
      intros [H|[H|[H|H]]]; try (apply in_map_iff in H; destruct H as [? [? _]]; discriminate).
      apply in_flat_map in H. destruct H as [c [_ H]]. unfold class_pieces in H. revert H. inapp.
      intros [H|[H|[H|H]]]; try (apply in_map_iff in H; destruct H as [? [? _]]; discriminate).
      * apply in_flat_map in H. destruct H as [x [_ H]]. unfold method_pieces in H.
        destruct (_ || _); [destruct H|]. destruct H as [H|H]; [discriminate|]. destruct (_ && _); cbn in H; intuition discriminate.
      * apply in_flat_map in H. destruct H as [x [_ H]]. unfold static_pieces in H. destruct H as [H|H]; [discriminate|].
        destruct (overrides _ _ _); cbn in H; intuition discriminate.
      * apply in_flat_map in H. destruct H as [x [_ H]]. unfold inherit_pieces in H. destruct (get_method _ _ _); [|destruct H].
        destruct (_ && _); cbn in H; intuition discriminate.
    + unfold main_pieces in H. destruct (p_ignore P); [destruct H | reflexivity].
    + apply in_flat_map in H. destruct H as [? [_ H]]. apply in_map_iff in H. destruct H as [? [? _]]; discriminate.
    + apply in_flat_map in H. destruct H as [? [_ H]]. apply in_map_iff in H. destruct H as [? [? _]]; discriminate.
    + exfalso. exact (fam_not_main P H).
  - intros H. right; right; left. unfold main_pieces. rewrite H. left. reflexivity.
Qed.

Lemma main_entry P s t : In (UMain, s) (assignment P []) -> In (UMain, t) (assignment P []) -> s = t.
Proof.
  unfold assignment, requests_of, main_pieces. destruct (p_ignore P).
  - intros H. apply assign_in in H. exfalso. revert H. inapp. intros [H|[H|[[]|H]]].
    + apply in_flat_map in H. destruct H as [im [_ H]]. exact (names_not_main P im H).
    + apply in_flat_map in H. destruct H as [im [_ H]]. apply filter_In in H. destruct H; discriminate.
    + apply filter_In in H. destruct H; discriminate.
  - set (A := flat_map (module_names P) (indexed P)).
    set (B := flat_map (fun im => filter is_check (module_pieces P [] im)) (indexed P)).
    set (F := filter is_frame (fam_pieces P)).
    assert (HA : ~ In UMain (A ++ B)).
    { rewrite in_app_iff. intros [H|H].
      - apply in_flat_map in H. destruct H as [im [_ H]]. exact (names_not_main P im H).
      - apply in_flat_map in H. destruct H as [im [_ H]]. apply filter_In in H. destruct H; discriminate. }
    assert (HF : ~ In UMain F).
    { intros H. apply filter_In in H. destruct H; discriminate. }
    rewrite app_assoc. destruct (assign_app P (A ++ B) ([UMain] ++ F) (p_taken P)) as [tbl ->].
    cbn [app assign]. destruct (fresh_total tbl (wish P UMain)) as [w [E _]]. rewrite E.
    assert (G : forall s, In (UMain, s) (assign P (A ++ B) (p_taken P) ++ (UMain, w) :: assign P F (w :: tbl)) -> s = w).
    { intros s' H. apply in_app_iff in H. destruct H as [H|[H|H]].
      - exfalso. apply HA. eapply assign_in; exact H.
      - congruence.
      - exfalso. apply HF. eapply assign_in; exact H. }
    intros H1 H2. apply G in H1, H2. congruence.
Qed.

Lemma main_exact P : in_program P [] UMain = true <->
  p_ignore P = false /\ ~ In str_main (p_taken P) /\ ~ top_level_name P str_main.
Proof.
  rewrite in_program_spec, emitted_main. split.
  - intros [Hi [s [Hs Hw]]]. split; [exact Hi|].
    assert (s = str_main) as ->.
    { unfold wanted in Hw. cbn [none_selected] in Hw. apply in_app_iff in Hw. destruct Hw as [Hw|[Hw|[]]]; [|auto].
      apply names_of_in in Hw. destruct Hw as [v [Hv Hn]]. exfalso. apply name_of_in in Hs, Hn.
      assert (v = UMain) as ->; [|exact (all_not_main P [] Hv)].
      eapply nodup_snd; [|exact Hn | exact Hs]. apply assign_fresh. }
    apply name_of_in in Hs. split; [eapply assign_main; exact Hs|].
    intros T. destruct (top_level_wish P T) as [i [m [u [Hm [Hu [Hwu _]]]]]].
    assert (Ht : ~ In str_main (p_taken P)) by (eapply assign_main; exact Hs).
    unfold assignment, requests_of in Hs.
    destruct (assign_app P (flat_map (module_names P) (indexed P))
      (flat_map (fun im => filter is_check (module_pieces P [] im)) (indexed P) ++ main_pieces P ++ filter is_frame (fam_pieces P)) (p_taken P)) as [tbl' E].
    destruct (assign_gives_main P (flat_map (module_names P) (indexed P)) (p_taken P) u) as [v Hv]; auto.
    { eapply flat_indexed; eauto. }
    assert (v = UMain) as ->.
    { eapply nodup_snd; [| |exact Hs]; [apply assign_fresh|]. rewrite E. apply in_or_app. left. exact Hv. }
    apply assign_in in Hv. apply in_flat_map in Hv. destruct Hv as [im [_ Hv]]. exact (names_not_main P im Hv).
  - intros [Hi [Ht Hn]]. split; [exact Hi|].
    assert (Hr : In UMain (requests_of P [])).
    { unfold requests_of, main_pieces. rewrite Hi. inapp. right; right; left. left. reflexivity. }
    destruct (assign_gives_main P (requests_of P []) (p_taken P) UMain Hr) as [v Hv]; [reflexivity | exact Ht|].
    assert (v = UMain) as ->.
    { pose proof (assign_in _ _ _ _ _ Hv) as Hin. apply assign_main in Hv. destruct Hv as [Hwv _].
      unfold requests_of in Hin. revert Hin. inapp. intros [H|[H|[H|H]]].
      - exfalso. apply in_flat_map in H. destruct H as [[i m] [Him H]]. apply indexed_in in Him. apply Hn. eapply names_main; eauto.
      - exfalso. apply in_flat_map in H. destruct H as [im [_ H]]. apply filter_In in H. destruct H as [_ H].
        eapply no_main_name; [|exact Hwv]. apply check_underscore. exact H.
      - unfold main_pieces in H. rewrite Hi in H. destruct H as [H|[]]. auto.
      - exfalso. apply filter_In in H. destruct H as [_ H]. destruct v; try discriminate.
        eapply no_main_name; [|exact Hwv]. cbn. apply in_or_app. right. left. reflexivity. }
    destruct (name_of_total P [] UMain Hr) as [s Hs]. exists s. split; [exact Hs|].
    apply name_of_in in Hs.
    assert (s = str_main) as -> by (eapply main_entry; eauto).
    unfold wanted; cbn [none_selected]; apply in_or_app; right; left; reflexivity.
Qed.

(** ** Selection *)
Lemma sel_eqb_spec a b : sel_eqb a b = true <-> a = b.
Proof.
  destruct a as [x|c x], b as [y|d y]; cbn; try (split; discriminate).
  - rewrite Nat.eqb_eq. split; congruence.
  - rewrite andb_true_iff, !Nat.eqb_eq. split; [intros [-> ->]; reflexivity | intros H; injection H; auto].
Qed.
Lemma sel_in_spec a l : sel_in a l = true <-> In a l.
Proof.
  unfold sel_in. rewrite existsb_exists. split.
  - intros [b [Hb E]]. apply sel_eqb_spec in E. subst. exact Hb.
  - intros H. exists a. split; [exact H|]. apply sel_eqb_spec. reflexivity.
Qed.
Lemma is_selected_spec P sels cls x : is_selected P sels cls x = true <-> asked_for P sels cls x.
Proof.
  unfold is_selected, asked_for. rewrite orb_true_iff, sel_in_spec. apply or_iff_compat_l. destruct cls as [c|].
  - rewrite orb_true_iff, !sel_in_spec. split.
    + intros H. exists c. auto.
    + intros [d [Hd H]]. injection Hd as ->. exact H.
  - split; [discriminate | intros [d [Hd _]]; discriminate].
Qed.
Lemma asked_some P sels cls x : asked_for P sels cls x -> none_selected sels = false.
Proof. destruct sels; [|reflexivity]. intros [[]|[c [_ [[]|[]]]]]. Qed.

Lemma selected_intro P sels u c x : In u (tracked_pieces P sels) -> In u (requests_of P sels) ->
  tracked_node u = Some (c, x) -> asked_for P sels c x -> in_program P sels u = true.
Proof.
  intros H1 H2 H3 H4. apply in_program_spec. split; [unfold emitted; apply in_or_app; right; exact H1|].
  destruct (name_of_total P sels u H2) as [s Hs]. exists s. split; [exact Hs|].
  unfold wanted. rewrite (asked_some _ _ _ _ H4). apply names_of_in. exists u. split; [|exact Hs].
  unfold selected_pieces. apply filter_In. split; [exact H1|]. rewrite H3. apply is_selected_spec. exact H4.
Qed.

Lemma contract_selected P sels o x : asked_for P sels (owner_cls o) x -> contract_only P sels o x = m_declared (p_info P o x).
Proof.
  intros H. unfold contract_only. rewrite (asked_some _ _ _ _ H). apply is_selected_spec in H. rewrite H.
  rewrite andb_false_r. cbn. rewrite orb_false_r. reflexivity.
Qed.

Lemma selected_functions P sels i m x : module_at P i m -> asked_for P sels None x ->
  (In x (md_functions m) -> m_interface (p_info P (OModule i) x) = false -> in_program P sels (UFunction (OModule i) x) = true) /\
  (In x (md_methods m) -> has_body P (OModule i) x ->
   in_program P sels (UMethod (OModule i) x) = true /\
   body_skipped P sels (UMethod (OModule i) x) = m_declared (p_info P (OModule i) x)) /\
  (In x (md_predicates m) -> in_program P sels (UPredicate i x) = true).
Proof.
  intros Hm Ha. split; [|split].
  - intros Hx Hi. eapply selected_intro; [eapply emitted_module; [exact Hm|] | eapply requests_module; [exact Hm|] | reflexivity | exact Ha].
    + cbn [module_pieces]. inapp. left. apply in_map. apply in_filter_neg; assumption.
    + cbn [module_names]. inapp. right; left. apply in_map. exact Hx.
  - intros Hx [Hi Hl]. split; [|apply contract_selected; exact Ha].
    eapply selected_intro; [eapply emitted_module; [exact Hm|] | eapply requests_module; [exact Hm|] | reflexivity | exact Ha].
    + cbn [module_pieces]. inapp. right; left. apply in_map.
      apply (in_filter_neg (fun x => m_interface (p_info P (OModule i) x) || m_inline (p_info P (OModule i) x))); [exact Hx|].
      rewrite Hi, Hl. reflexivity.
    + cbn [module_names]. inapp. right; right; left. apply in_map. exact Hx.
  - intros Hx. eapply selected_intro; [eapply emitted_module; [exact Hm|] | eapply requests_module; [exact Hm|] | reflexivity | exact Ha].
    + cbn [module_pieces]. inapp. right; right; left. apply in_map. exact Hx.
    + cbn [module_names]. inapp. right; right; right; left. apply in_map. exact Hx.
Qed.
Lemma selected_members P sels c x : some_class P c -> asked_for P sels (Some c) x ->
  (In x (c_functions (p_tb P c)) -> m_interface (p_info P (OClass c) x) = false -> in_program P sels (UFunction (OClass c) x) = true) /\
  (defines_method (p_tb P) x c -> has_body P (OClass c) x ->
   in_program P sels (UMethod (OClass c) x) = true /\
   body_skipped P sels (UMethod (OClass c) x) = m_declared (p_info P (OClass c) x) /\
   (x <> p_init P -> forall d, superclass (p_tb P) c = Some d -> defines (p_tb P) x d ->
    in_program P sels (UOverride c x) = true)).
Proof.
  intros [i [m [Hm Hc]]] Ha. split.
  - intros Hx Hi. eapply selected_intro; [eapply emitted_module; [exact Hm|]; eapply module_class; [exact Hc|]
      | eapply requests_module; [exact Hm|]; eapply names_class; [exact Hc|] | reflexivity | exact Ha].
    + apply class_function; assumption.
    + unfold class_names. right. inapp. left. apply in_map. exact Hx.
  - intros Hx Hb. split; [|split; [apply contract_selected; exact Ha|]].
    + eapply selected_intro; [eapply emitted_module; [exact Hm|]; eapply module_class; [exact Hc|]
        | eapply requests_module; [exact Hm|]; eapply names_class; [exact Hc|] | reflexivity | exact Ha].
      * destruct Hx as [Hx|Hx]; [eapply class_method_in; [exact Hx|]; apply method_piece; assumption|].
        eapply class_static_in; [exact Hx|]. left. reflexivity.
      * unfold class_names. right. inapp. right; left. apply in_map. apply in_or_app. exact Hx.
    + intros Hn d Hd Hdx.
      assert (H : In (UOverride c x) (module_pieces P sels (i, m))).
      { eapply module_class; [exact Hc|]. destruct Hx as [Hx|Hx].
        - eapply class_method_in; [exact Hx|]. eapply override_piece; eauto.
        - eapply class_static_in; [exact Hx|]. eapply override_static; eauto. }
      eapply selected_intro; [eapply emitted_module; eauto | eapply requests_check; eauto | reflexivity | exact Ha].
Qed.
Lemma unselected_skipped P sels o x : sels <> [] -> ~ asked_for P sels (owner_cls o) x -> body_skipped P sels (UMethod o x) = true.
Proof.
  intros H1 H2. cbn. unfold contract_only. destruct (is_selected P sels (owner_cls o) x) eqn:E.
  - apply is_selected_spec in E. contradiction.
  - destruct sels; [contradiction|]. cbn. rewrite orb_true_r. reflexivity.
Qed.
