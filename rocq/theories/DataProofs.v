(** Proofs about dataclasses. *)
From Coq Require Import Bool Arith List Lia.
From Verif Require Import DataModel DataSpec.
Import ListNotations.

(** ** Tables *)
Lemma get_upd t c f c' : get (upd t c f) c' = if c =? c' then f (get t c) else get t c'.
Proof.
  induction t as [|[d fs] t IH]; cbn.
  - destruct (c =? c') eqn:E; reflexivity.
  - destruct (d =? c) eqn:E; cbn.
    + apply Nat.eqb_eq in E. subst d. destruct (c =? c') eqn:E2; reflexivity.
    + destruct (d =? c') eqn:E2; [|exact IH].
      apply Nat.eqb_eq in E2. subst d. rewrite Nat.eqb_sym, E. reflexivity.
Qed.

Lemma get_access t a c : get (visit_access t a) c = if a_cls a =? c then add_field (a_attr a) (get t c) else get t c.
Proof.
  unfold visit_access. rewrite get_upd. destruct (a_cls a =? c) eqn:E; [|reflexivity].
  apply Nat.eqb_eq in E. rewrite E. reflexivity.
Qed.

Lemma get_accesses l : forall t c,
  get (visit_accesses t l) c = fold_left (fun fs x => add_field x fs) (of_class c l) (get t c).
Proof.
  induction l as [|a l IH]; intros t c; [reflexivity|].
  unfold visit_accesses in *. cbn [fold_left]. rewrite IH, get_access.
  unfold of_class. cbn [flat_map]. rewrite fold_left_app.
  destruct (a_cls a =? c); reflexivity.
Qed.

(** ** Names of the fields *)
Definition snoc_new (ns : list nat) (x : nat) : list nat := if existsb (Nat.eqb x) ns then ns else ns ++ [x].

Lemma has_names x fs : has x fs = existsb (Nat.eqb x) (map e_name fs).
Proof. induction fs as [|e fs IH]; cbn; [reflexivity|]. rewrite IH, Nat.eqb_sym. reflexivity. Qed.

Lemma add_names x fs : map e_name (add_field x fs) = snoc_new (map e_name fs) x.
Proof.
  unfold add_field, snoc_new. rewrite has_names. destruct (existsb _ _); [reflexivity|].
  rewrite map_app. reflexivity.
Qed.

Lemma put_names x fs : map e_name (put_prop x fs) = snoc_new (map e_name fs) x.
Proof.
  unfold snoc_new. induction fs as [|e fs IH]; cbn; [reflexivity|].
  rewrite (Nat.eqb_sym x). destruct (e_name e =? x) eqn:E; cbn.
  - apply Nat.eqb_eq in E. rewrite E. reflexivity.
  - rewrite IH. destruct (existsb _ _); reflexivity.
Qed.

Lemma set_default_names x d fs : map e_name (set_default x d fs) = map e_name fs.
Proof.
  induction fs as [|e fs IH]; cbn; [reflexivity|]. destruct (e_name e =? x) eqn:E; cbn.
  - apply Nat.eqb_eq in E. rewrite E. reflexivity.
  - rewrite IH. reflexivity.
Qed.

Lemma declare_names fz x d fs : map e_name (declare fz x d fs) = snoc_new (map e_name fs) x.
Proof.
  unfold declare. destruct d as [d|], fz; rewrite ?set_default_names; auto using put_names, add_names.
Qed.

Lemma fold_add_names l : forall fs,
  map e_name (fold_left (fun fs x => add_field x fs) l fs) = fold_left snoc_new l (map e_name fs).
Proof.
  induction l as [|x l IH]; intros fs; cbn [fold_left]; [reflexivity|]. rewrite IH, add_names. reflexivity.
Qed.

Lemma member_names k c m t :
  map e_name (get (visit_member k t m) c) = fold_left snoc_new (member_mentions c k m) (map e_name (get t c)).
Proof.
  destruct m as [x d|x v|kd l|x l]; cbn [visit_member member_mentions].
  - destruct (c_data k); cbn [andb]; [|reflexivity].
    rewrite get_upd. destruct (c_name k =? c) eqn:E; [|reflexivity].
    apply Nat.eqb_eq in E. rewrite E, declare_names. reflexivity.
  - destruct (c_data k); cbn [andb]; [|reflexivity].
    rewrite get_upd. destruct (c_name k =? c) eqn:E; [|reflexivity].
    apply Nat.eqb_eq in E. rewrite E, declare_names. reflexivity.
  - rewrite get_accesses, fold_add_names. reflexivity.
  - rewrite get_accesses, fold_add_names, get_upd, fold_left_app.
    destruct (c_name k =? c) eqn:E; [|reflexivity].
    apply Nat.eqb_eq in E. rewrite E, put_names. reflexivity.
Qed.

Lemma members_names k c ms : forall t,
  map e_name (get (fold_left (visit_member k) ms t) c) =
  fold_left snoc_new (flat_map (member_mentions c k) ms) (map e_name (get t c)).
Proof.
  induction ms as [|m ms IH]; intros t; cbn [fold_left flat_map]; [reflexivity|].
  rewrite IH, member_names, fold_left_app. reflexivity.
Qed.

Lemma first_occurrences_ext l : forall s1 s2, (forall x, In x s1 <-> In x s2) ->
  first_occurrences s1 l = first_occurrences s2 l.
Proof.
  assert (B : forall s1 s2 x, (forall y, In y s1 <-> In y s2) -> existsb (Nat.eqb x) s1 = existsb (Nat.eqb x) s2).
  { intros s1 s2 x H. apply eq_iff_eq_true. rewrite !existsb_exists.
    split; intros (y & I & E); exists y; split; auto; apply H; auto. }
  induction l as [|x l IH]; intros s1 s2 H; cbn [first_occurrences]; [reflexivity|].
  rewrite (B s1 s2 x H). destruct (existsb (Nat.eqb x) s2); [auto|].
  f_equal. apply IH. intros y. cbn. rewrite H. tauto.
Qed.

Lemma fold_snoc l : forall ns, fold_left snoc_new l ns = ns ++ first_occurrences ns l.
Proof.
  induction l as [|x l IH]; intros ns; cbn [fold_left first_occurrences]; [symmetry; apply app_nil_r|].
  rewrite IH. unfold snoc_new. destruct (existsb (Nat.eqb x) ns) eqn:E; [reflexivity|].
  rewrite <- app_assoc. cbn [app]. do 2 f_equal. apply first_occurrences_ext.
  intros y. rewrite in_app_iff. cbn. tauto.
Qed.

Lemma align_names fs : forall n ds, map p_name (align n fs ds) = map e_name fs.
Proof.
  induction fs as [|e fs IH]; intros n ds; cbn; [reflexivity|].
  destruct n as [|n]; [destruct ds as [|d ds]|]; cbn; rewrite IH; reflexivity.
Qed.

(** The fields of class [c] when the constructor is generated. *)
Fixpoint final (t : table) (p : list item) (c : nat) : fields :=
  match p with
  | [] => []
  | IFunc l :: p' => final (visit_accesses t l) p' c
  | IClass k :: p' =>
      let t' := fold_left (visit_member k) (c_members k) t in
      if c_name k =? c then get t' c else final t' p' c
  end.

Lemma find_in p : forall c k, find_class p c = Some k -> In c (class_names p) /\ c_name k = c.
Proof.
  induction p as [|[l|k] p IH]; intros c k' F; cbn in F; [discriminate| |].
  - apply IH in F. exact F.
  - unfold class_names. cbn. destruct (c_name k =? c) eqn:E.
    + injection F as <-. apply Nat.eqb_eq in E. auto.
    + apply IH in F. destruct F. auto.
Qed.

Lemma find_ctor_final p : forall t c k,
  NoDup (class_names p) -> find_class p c = Some k -> implicit_init k = true ->
  find_ctor (visit_items t p) c = Some (make_ctor k (final t p c)).
Proof.
  induction p as [|[l|k] p IH]; intros t c k' ND F I; cbn in F; [discriminate| |]; cbn [visit_items final].
  - apply IH; auto.
  - assert (ND' := ND). unfold class_names in ND'. cbn in ND'. apply NoDup_cons_iff in ND'. destruct ND' as [N1 N2].
    destruct (c_name k =? c) eqn:E.
    + injection F as <-. rewrite I. cbn. rewrite E. apply Nat.eqb_eq in E. rewrite E. reflexivity.
    + destruct (implicit_init k); cbn; rewrite ?E; apply IH; auto.
Qed.

Lemma final_names p : forall t c k, find_class p c = Some k ->
  map e_name (final t p c) = fold_left snoc_new (mentions p c) (map e_name (get t c)).
Proof.
  induction p as [|[l|k] p IH]; intros t c k' F; cbn in F; [discriminate| |]; cbn [final mentions].
  - rewrite (IH _ _ _ F), get_accesses, fold_add_names, fold_left_app. reflexivity.
  - destruct (c_name k =? c) eqn:E.
    + rewrite app_nil_r. apply members_names.
    + rewrite (IH _ _ _ F), members_names, fold_left_app. reflexivity.
Qed.

Theorem c54_params_exact : forall p c k,
  NoDup (class_names p) -> find_class p c = Some k -> c_data k = true -> explicit_init k = false ->
  exists ct, find_ctor (ctors p) c = Some ct /\
    map p_name (k_params ct) = first_occurrences [] (mentions p c) /\
    k_acc ct = if c_frozen k then [] else first_occurrences [] (mentions p c).
Proof.
  intros p c k ND F D X. eexists. split.
  { apply find_ctor_final; eauto. unfold implicit_init. rewrite D, X. reflexivity. }
  unfold make_ctor, init_params. cbn [k_params k_acc]. rewrite align_names, (final_names _ _ _ _ F).
  cbn [get map]. rewrite fold_snoc. auto.
Qed.

(** ** Tidy classes *)
Definition decls (ms : list member) : list pfield :=
  flat_map (fun m => match m with MField x d => [(x, d)] | _ => [] end) ms.
Definition mk (fz : bool) (f : pfield) : entry := Entry (fst f) fz (snd f).

Lemma add_present x fs : In x (map e_name fs) -> add_field x fs = fs.
Proof.
  intros H. unfold add_field. rewrite has_names.
  replace (existsb _ _) with true; [reflexivity|]. symmetry. apply existsb_exists. exists x. split; auto using Nat.eqb_refl.
Qed.
Lemma adds_present l : forall fs, (forall x, In x l -> In x (map e_name fs)) ->
  fold_left (fun fs x => add_field x fs) l fs = fs.
Proof.
  induction l as [|x l IH]; intros fs H; cbn [fold_left]; [reflexivity|].
  rewrite add_present by (apply H; left; reflexivity). apply IH. intros y Hy. apply H. right. exact Hy.
Qed.
Lemma absent x fs : ~ In x (map e_name fs) -> existsb (Nat.eqb x) (map e_name fs) = false.
Proof.
  intros H. destruct (existsb _ _) eqn:E; [|reflexivity]. apply existsb_exists in E. destruct E as (y & I & E).
  apply Nat.eqb_eq in E. subst y. contradiction.
Qed.
Lemma put_absent x fs : ~ In x (map e_name fs) -> put_prop x fs = fs ++ [Entry x true None].
Proof.
  induction fs as [|e fs IH]; cbn; intros H; [reflexivity|].
  destruct (e_name e =? x) eqn:E; [apply Nat.eqb_eq in E; tauto|]. rewrite IH by tauto. reflexivity.
Qed.
Lemma set_default_last x d b fs : ~ In x (map e_name fs) ->
  set_default x d (fs ++ [Entry x b None]) = fs ++ [Entry x b (Some d)].
Proof.
  induction fs as [|e fs IH]; cbn; intros H.
  - rewrite Nat.eqb_refl. reflexivity.
  - destruct (e_name e =? x) eqn:E; [apply Nat.eqb_eq in E; tauto|]. rewrite IH by tauto. reflexivity.
Qed.
Lemma declare_absent fz x d fs : ~ In x (map e_name fs) -> declare fz x d fs = fs ++ [Entry x fz d].
Proof.
  intros H. unfold declare. destruct fz.
  - rewrite put_absent by exact H. destruct d; [apply set_default_last; exact H|reflexivity].
  - unfold add_field. rewrite has_names, absent by exact H.
    destruct d; [apply set_default_last; exact H|reflexivity].
Qed.

Lemma tidy_get k ms : forall t seen, c_data k = true ->
  tidy_members (c_name k) seen ms -> (forall x, In x seen <-> In x (map e_name (get t (c_name k)))) ->
  get (fold_left (visit_member k) ms t) (c_name k) = get t (c_name k) ++ map (mk (c_frozen k)) (decls ms).
Proof.
  induction ms as [|m ms IH]; intros t seen D T S; cbn [fold_left].
  - symmetry. apply app_nil_r.
  - destruct m as [x d|x v|kd l|x l]; cbn [tidy_members] in T; try contradiction.
    + destruct T as [NI T]. cbn [visit_member]. rewrite D.
      assert (G : get (upd t (c_name k) (declare (c_frozen k) x d)) (c_name k) =
                  get t (c_name k) ++ [Entry x (c_frozen k) d]).
      { rewrite get_upd, Nat.eqb_refl. apply declare_absent. rewrite <- S. exact NI. }
      rewrite (IH _ (x :: seen)); auto.
      * rewrite G, <- app_assoc. reflexivity.
      * intros y. rewrite G, map_app, in_app_iff, <- S. cbn. tauto.
    + destruct T as [A T]. cbn [visit_member].
      assert (G : get (visit_accesses t l) (c_name k) = get t (c_name k)).
      { rewrite get_accesses. apply adds_present. intros x Hx. apply S. auto. }
      rewrite (IH _ seen); auto; rewrite G; auto.
Qed.

Lemma untouched_final p : forall t k, find_class p (c_name k) = Some k -> untouched_before p (c_name k) ->
  get t (c_name k) = [] -> c_data k = true -> tidy_members (c_name k) [] (c_members k) ->
  final t p (c_name k) = map (mk (c_frozen k)) (decls (c_members k)).
Proof.
  induction p as [|[l|j] p IH]; intros t k F U G D T; cbn in F; [discriminate| |]; cbn [final untouched_before] in *.
  - destruct U as [U1 U2]. apply IH; auto. rewrite get_accesses, U1. exact G.
  - destruct (c_name j =? c_name k) eqn:E.
    + injection F as ->. rewrite (tidy_get k _ t []); auto; rewrite G; [reflexivity|]. intros x. cbn. tauto.
    + destruct U as [U1 U2]. apply IH; auto.
      assert (M := members_names j (c_name k) (c_members j) t). rewrite U1, G in M. cbn in M.
      apply map_eq_nil in M. exact M.
Qed.

Lemma tidy_nodup c ms : forall seen, tidy_members c seen ms ->
  NoDup (map fst (decls ms)) /\ forall x, In x (map fst (decls ms)) -> ~ In x seen.
Proof.
  induction ms as [|m ms IH]; intros seen T; [split; [constructor|intros x []]|].
  destruct m as [x d|x v|kd l|x l]; cbn [tidy_members] in T; try contradiction.
  - destruct T as [NI T]. destruct (IH _ T) as [N1 N2]. cbn. split.
    + constructor; [|exact N1]. intros H. apply (N2 _ H). left. reflexivity.
    + intros y [<-|H]; [exact NI|]. intros Hs. apply (N2 _ H). right. exact Hs.
  - destruct T as [_ T]. apply IH. exact T.
Qed.

(** ** Python's fields of a tidy class *)
Lemma put_field_nonempty g fs : put_field g fs <> [].
Proof. destruct fs as [|h fs]; cbn; [discriminate|]. destruct (fst h =? fst g); discriminate. Qed.
Lemma fold_put_nonempty l : forall fs, fold_left (fun fs g => put_field g fs) l fs = [] -> l = [] /\ fs = [].
Proof.
  induction l as [|g l IH]; intros fs H; cbn [fold_left] in H; [auto|].
  apply IH in H. destruct H as [_ H]. destruct (put_field_nonempty _ _ H).
Qed.
Lemma py_fields_less f : forall p c, py_fields (S f) p c = [] -> py_fields f p c = [].
Proof.
  induction f as [|f IH]; intros p c H; [reflexivity|].
  cbn [py_fields]. cbn [py_fields] in H. destruct (find_class p c) as [k|]; [|reflexivity].
  destruct (c_data k).
  - apply fold_put_nonempty in H. destruct H as [-> H]. cbn [fold_left].
    destruct (c_base k) as [b|]; [|reflexivity]. apply IH. exact H.
  - destruct (c_base k) as [b|]; [|reflexivity]. apply IH. exact H.
Qed.
Lemma class_attr_less f : forall p c x, class_attr (S f) p c x = None -> class_attr f p c x = None.
Proof.
  induction f as [|f IH]; intros p c x H; [reflexivity|].
  cbn [class_attr]. cbn [class_attr] in H. destruct (find_class p c) as [k|]; [|reflexivity].
  destruct (own_attr (c_members k) x); [discriminate|].
  destruct (c_base k) as [b|]; [|reflexivity]. apply IH. exact H.
Qed.

Lemma fold_put_nodup l : forall fs, NoDup (map fst (fs ++ l)) ->
  fold_left (fun fs g => put_field g fs) l fs = fs ++ l.
Proof.
  assert (P : forall g fs, ~ In (fst g) (map fst fs) -> put_field g fs = fs ++ [g]).
  { intros g fs. induction fs as [|h fs IH]; cbn; intros H; [reflexivity|].
    destruct (fst h =? fst g) eqn:E; [apply Nat.eqb_eq in E; tauto|]. rewrite IH by tauto. reflexivity. }
  induction l as [|g l IH]; intros fs ND; cbn [fold_left]; [symmetry; apply app_nil_r|].
  assert (E : fs ++ g :: l = (fs ++ [g]) ++ l) by (rewrite <- app_assoc; reflexivity).
  rewrite P.
  - rewrite E in *. apply IH. exact ND.
  - rewrite map_app in ND. cbn in ND. apply NoDup_remove_2 in ND. intros H. apply ND. apply in_app_iff. auto.
Qed.

Lemma own_attr_tidy c ms : forall seen, tidy_members c seen ms -> forall x, In (x, None) (decls ms) -> own_attr ms x = None.
Proof.
  induction ms as [|m ms IH]; intros seen T x H; [destruct H|].
  assert (ND := proj1 (tidy_nodup _ _ _ T)).
  destruct m as [y d|y v|kd l|y l]; cbn [tidy_members] in T; try contradiction.
  - destruct T as [NI T]. cbn in H, ND. apply NoDup_cons_iff in ND. destruct ND as [N1 N2].
    destruct H as [H|H].
    + injection H as -> ->. cbn.
      clear -N1 T. revert T N1. generalize (x :: seen) as s. induction ms as [|m ms IH]; intros s T N1; [reflexivity|].
      destruct m as [y d|y v|kd l|y l]; cbn [tidy_members] in T; try contradiction.
      * destruct T as [_ T]. cbn in N1. cbn. destruct d as [[v|]|]; [|eapply IH; eauto; tauto..].
        destruct (y =? x) eqn:E; [apply Nat.eqb_eq in E; tauto|]. eapply IH; eauto.
      * destruct T as [_ T]. cbn. eapply IH; eauto.
    + cbn. destruct d as [[v|]|]; [|eauto..].
      destruct (y =? x) eqn:E; [|eauto]. apply Nat.eqb_eq in E. subst y. exfalso. apply N1.
      apply in_map_iff. exists (x, None). auto.
  - destruct T as [_ T]. cbn. eapply IH; eauto.
Qed.

Lemma own_fields_tidy p k : find_class p (c_name k) = Some k -> tidy p k ->
  own_fields p k = decls (c_members k).
Proof.
  intros F (D & T & U & B).
  assert (A : forall x, In (x, None) (decls (c_members k)) -> class_attr (length p) p (c_name k) x = None).
  { intros x H. destruct p as [|i p']; [discriminate|]. set (p := i :: p') in *. cbn [length class_attr].
    change (length p) with (S (length p')) in *.
    cbn [class_attr]. rewrite F, (own_attr_tidy _ _ _ T x H).
    destruct (c_base k) as [b|]; [|reflexivity]. apply class_attr_less. apply B. }
  unfold own_fields. revert A. generalize (c_members k) as ms. induction ms as [|m ms IH]; intros A; [reflexivity|].
  destruct m as [x [d|]|x v|kd l|x l]; cbn; rewrite IH; auto.
  - intros y H. apply A. right. exact H.
  - rewrite A by (left; reflexivity). reflexivity.
  - intros y H. apply A. right. exact H.
Qed.

Lemma py_fields_tidy p k : find_class p (c_name k) = Some k -> tidy p k ->
  py_fields (length p) p (c_name k) = decls (c_members k).
Proof.
  intros F T. assert (O := own_fields_tidy p k F T). destruct T as (D & T & U & B).
  assert (I : match c_base k with Some b => py_fields (pred (length p)) p b | None => [] end = []).
  { destruct (c_base k) as [b|]; [|reflexivity]. destruct B as [B _].
    destruct p; [discriminate|]. cbn [length pred] in *. apply py_fields_less. exact B. }
  destruct (length p) as [|n] eqn:L; [destruct p; discriminate|]. cbn [py_fields]. cbn [pred] in I.
  rewrite F, D, I, O. apply fold_put_nodup. cbn. apply (tidy_nodup _ _ _ T).
Qed.

(** ** Defaults *)
Definition own_param (f : pfield) : param :=
  Param (fst f) (match snd f with Some (DConst v) => Some v | Some DFactory => Some none_value | None => None end)
        (match snd f with Some DFactory => true | _ => false end).

Lemma defaults_length fz fs : length (defaults (map (mk fz) fs)) <= length fs.
Proof. induction fs as [|[x [[v|]|]] fs IH]; cbn; lia. Qed.

Lemma align_all fz fs : Forall (fun g : pfield => snd g <> None) fs ->
  length (defaults (map (mk fz) fs)) = length fs /\
  align 0 (map (mk fz) fs) (defaults (map (mk fz) fs)) = map own_param fs.
Proof.
  induction 1 as [|[x [[v|]|]] fs H F [IH1 IH2]]; cbn; [auto| | |].
  - split; [lia|]. rewrite IH2. reflexivity.
  - split; [lia|]. rewrite IH2. reflexivity.
  - cbn in H. contradiction.
Qed.

Lemma init_params_last fz fs : defaults_last fs -> init_params (map (mk fz) fs) = map own_param fs.
Proof.
  unfold init_params. rewrite map_length. induction fs as [|[x [d|]] fs IH]; intros D; [reflexivity| |].
  - assert (A : Forall (fun g : pfield => snd g <> None) (@cons pfield (x, Some d) fs)) by (constructor; [discriminate|exact D]).
    destruct (align_all fz _ A) as [A1 A2]. rewrite A1, Nat.sub_diag. exact A2.
  - cbn [map defaults_last] in *. cbn [mk fst snd defaults].
    assert (L := defaults_length fz fs). cbn [length]. rewrite Nat.sub_succ_l by exact L.
    cbn [align]. rewrite IH by exact D. reflexivity.
Qed.

(** ** Binding *)
Lemma find_kw_absent x kws : ~ In x (map fst kws) -> find_kw x kws = None.
Proof.
  induction kws as [|[y v] kws IH]; cbn; intros H; [reflexivity|].
  destruct (y =? x) eqn:E; [apply Nat.eqb_eq in E; tauto|]. apply IH. tauto.
Qed.
Lemma keyword_find x kws : NoDup (map fst kws) -> keyword x kws = find_kw x kws.
Proof.
  induction kws as [|[y v] kws IH]; cbn; intros H; [reflexivity|].
  apply NoDup_cons_iff in H. destruct H as [H1 H2]. rewrite IH by exact H2.
  destruct (y =? x) eqn:E; [|destruct (find_kw x kws); reflexivity].
  apply Nat.eqb_eq in E. subst y. rewrite find_kw_absent by exact H1. reflexivity.
Qed.

Lemma bind_python fs : forall pos kws o, NoDup (map fst kws) -> map fst o = map fst fs ->
  (forall i f s, nth_error fs i = Some f -> nth_error (map snd o) i = Some s ->
                 py_value f (nth_error pos i) kws = Some s) ->
  bind (map own_param fs) pos kws = Some o.
Proof.
  induction fs as [|f fs IH]; intros pos kws o ND E V.
  - destruct o; [reflexivity|discriminate].
  - destruct o as [|[x s] o]; [discriminate|]. cbn in E. injection E as -> E.
    assert (V0 := V 0 f s eq_refl eq_refl). cbn [map bind].
    rewrite (IH (tl pos) kws o ND E).
    2:{ intros i g s' H1 H2. specialize (V (S i) g s' H1 H2). destruct pos; [destruct i|]; exact V. }
    cbn [own_param p_name p_factory p_default]. rewrite (keyword_find _ _ ND).
    unfold py_value in V0. destruct (find_kw (fst f) kws) as [w|].
    + destruct pos; cbn in V0; [|discriminate]. injection V0 as <-. reflexivity.
    + destruct pos as [|a pos]; cbn in V0.
      * destruct f as [y [[v|]|]]; cbn in *; congruence.
      * injection V0 as <-. reflexivity.
Qed.

Lemma init_owner_py f : forall p c, init_owner f p c = py_init f p c.
Proof.
  induction f as [|f IH]; intros p c; [reflexivity|]. cbn [init_owner py_init].
  destruct (find_class p c) as [k|]; [|reflexivity]. unfold implicit_init, explicit_init.
  destruct (existsb _ (c_members k)); [reflexivity|]. rewrite andb_true_r. destruct (c_data k); [reflexivity|].
  destruct (c_base k); auto.
Qed.

Lemma py_init_class f : forall p c k, py_init f p c = Some (OImplicit k) ->
  exists j, find_class p k = Some j /\ c_data j = true /\ explicit_init j = false.
Proof.
  induction f as [|f IH]; intros p c k H; [discriminate|]. cbn [py_init] in H.
  destruct (find_class p c) as [j|] eqn:F; [|discriminate].
  destruct (existsb _ (c_members j)) eqn:X; [discriminate|].
  destruct (c_data j) eqn:D; [injection H as <-; exists j; auto|].
  destruct (c_base j) as [b|]; [|discriminate]. eapply IH; eauto.
Qed.

Theorem c54_construct_partial : forall p c pos kws o j k,
  NoDup (class_names p) -> py_init (length p) p c = Some (OImplicit k) -> find_class p k = Some j ->
  tidy p j -> defaults_last (py_fields (length p) p k) ->
  py_construct p c pos kws o -> construct p c pos kws = Some o.
Proof.
  intros p c pos kws o j k ND PI F T DL (k' & PI' & L & NK & UK & E & V).
  rewrite PI in PI'. injection PI' as <-.
  destruct (py_init_class _ _ _ _ PI) as (j' & F' & D & X). rewrite F in F'. injection F' as <-.
  destruct (find_in _ _ _ F) as [_ N]. subst k.
  assert (PF := py_fields_tidy p j F T). rewrite PF in *.
  unfold construct. rewrite init_owner_py, PI.
  assert (I : implicit_init j = true) by (unfold implicit_init; rewrite D, X; reflexivity).
  unfold ctors. rewrite (find_ctor_final p [] _ j ND F I). unfold make_ctor. cbn [k_params].
  destruct T as (_ & T & U & B). rewrite untouched_final; auto.
  rewrite init_params_last by exact DL. apply bind_python; auto.
Qed.

Lemma post_owner_py f : forall p c, post_owner f p c = py_method f p c.
Proof.
  induction f as [|f IH]; intros p c; [reflexivity|]. cbn [post_owner py_method]. unfold has_post_init.
  destruct (find_class p c) as [k|]; [|reflexivity]. destruct (existsb _ _); [reflexivity|].
  destruct (c_base k); auto.
Qed.

Theorem c54_post_init_partial : forall p c k,
  find_class p c = Some k -> c_data k = true -> explicit_init k = false -> post_init p c = py_post_init p c.
Proof.
  intros p c k F D X. unfold post_init, py_post_init.
  assert (I : implicit_init k = true) by (unfold implicit_init; rewrite D, X; reflexivity).
  rewrite F, D, I. cbn [andb]. destruct (length p) as [|n] eqn:L; [destruct p; discriminate|].
  cbn [py_init]. rewrite F. unfold explicit_init in X. rewrite X, D, post_owner_py.
  destruct (py_method (S n) p c); reflexivity.
Qed.
