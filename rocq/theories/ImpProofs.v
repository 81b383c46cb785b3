(** Proofs about name tables, views and imports. *)
From Coq Require Import List Arith Lia Bool String.
From Verif Require Import ImpModel ImpSpec.
Import ListNotations.

(** * CombinedDict *)

Lemma cd_names_rev : forall ns, cd_names ns = rev (map (fun e => (new_name e, fst e)) ns).
Proof.
  intros ns. unfold cd_names.
  assert (G : forall acc, fold_left (fun d e => (new_name e, fst e) :: d) ns acc
    = rev (map (fun e => (new_name e, fst e)) ns) ++ acc).
  { induction ns as [|e ns IH]; intros acc; [reflexivity|]. cbn [fold_left map rev]. rewrite IH, <- app_assoc. reflexivity. }
  rewrite G, app_nil_r. reflexivity.
Qed.

Lemma cd_names_snoc : forall ns e, cd_names (ns ++ [e]) = (new_name e, fst e) :: cd_names ns.
Proof. intros ns e. rewrite !cd_names_rev, map_app, rev_app_distr. reflexivity. Qed.

Lemma new_name_is : forall k a x, new_name (k, a) = x <-> (a = Some x \/ (a = None /\ k = x)).
Proof.
  intros k [b|] x; unfold new_name; cbn [fst snd]; split.
  - intros ->. left. reflexivity.
  - intros [[= ->]|[E _]]; [reflexivity|discriminate].
  - intros ->. right. split; reflexivity.
  - intros [E|[_ E]]; [discriminate|exact E].
Qed.

Lemma assoc_names : forall ns x y, assoc x (cd_names ns) = Some y <->
  (exists pre a post, ns = pre ++ (y, a) :: post /\ (a = Some x \/ (a = None /\ y = x)) /\
     forall e, In e post -> snd e <> Some x /\ (snd e = None -> fst e <> x)).
Proof.
  intros ns x y. induction ns as [|[k a] ns IH] using rev_ind.
  - split; [discriminate|]. intros (pre & a & post & E & _). destruct pre; discriminate.
  - rewrite cd_names_snoc. cbn [assoc fst]. destruct (String.eqb_spec x (new_name (k, a))) as [N|N].
    + split.
      * intros [= ->]. exists ns, a, []. split; [reflexivity|]. split; [apply new_name_is; congruence|].
        intros e [].
      * intros (pre & b & post & E & V & L). destruct post as [|p post] using rev_ind.
        -- apply app_inj_tail in E. destruct E as [_ [= -> _]]. reflexivity.
        -- clear IHpost. rewrite app_comm_cons, app_assoc in E. apply app_inj_tail in E.
           destruct E as [_ <-]. destruct (L (k, a)) as [L1 L2]; [apply in_or_app; right; left; reflexivity|].
           cbn [fst snd] in *. symmetry in N. apply new_name_is in N. destruct N as [N|[N1 N2]]; [congruence|].
           exfalso. apply L2; assumption.
    + rewrite IH. split.
      * intros (pre & b & post & -> & V & L). exists pre, b, (post ++ [(k, a)]).
        split; [rewrite <- app_assoc; reflexivity|]. split; [exact V|]. intros e I. apply in_app_or in I.
        destruct I as [I|[<-|[]]]; [apply L; exact I|]. cbn [fst snd]. split.
        -- intros ->. apply N. reflexivity.
        -- intros -> ->. apply N. reflexivity.
      * intros (pre & b & post & E & V & L). destruct post as [|p post] using rev_ind.
        -- apply app_inj_tail in E. destruct E as [_ [= -> ->]]. exfalso. apply N. symmetry. apply new_name_is. exact V.
        -- clear IHpost. rewrite app_comm_cons, app_assoc in E. apply app_inj_tail in E. destruct E as [-> _].
           exists pre, b, post. split; [reflexivity|]. split; [exact V|]. intros e I. apply L.
           apply in_or_app. left. exact I.
Qed.

Lemma cd_key_ok : forall ns x y, cd_key ns x = Some y <-> stands_for ns x y.
Proof.
  intros ns x y. unfold stands_for. rewrite <- assoc_names. unfold cd_key.
  destruct ns as [|e ns] using rev_ind.
  - cbn. split; [intros [= ->]; left; split; reflexivity|]. intros [[_ ->]|E]; [reflexivity|discriminate].
  - rewrite cd_names_snoc. split; [intros E; right; exact E|]. intros [[E _]|E]; [|exact E].
    destruct ns; discriminate.
Qed.

Lemma assoc_maps : forall (A : Type) (d : list (string * A)) x v, assoc x d = Some v <-> maps d x v.
Proof.
  intros A d x v. induction d as [|[y w] d IH]; cbn [assoc].
  - split; [discriminate|inversion 1].
  - destruct (String.eqb_spec x y) as [->|N].
    + split; [intros [= ->]; constructor|]. inversion 1; subst; [reflexivity|congruence].
    + rewrite IH. split; [constructor; assumption|]. inversion 1; subst; [congruence|assumption].
Qed.

Lemma has_maps : forall (A : Type) (d : list (string * A)) x, has x d = true <-> exists v, maps d x v.
Proof.
  intros A d x. unfold has. destruct (assoc x d) as [v|] eqn:E.
  - apply assoc_maps in E. split; [exists v; exact E|reflexivity].
  - split; [discriminate|]. intros [v H]. apply assoc_maps in H. congruence.
Qed.

Lemma has_false : forall (A : Type) (d : list (string * A)) x, has x d = false <-> forall v, ~ maps d x v.
Proof.
  intros A d x. rewrite <- not_true_iff_false, has_maps. split.
  - intros H v M. apply H. exists v. exact M.
  - intros H [v M]. exact (H v M).
Qed.

Lemma tables_get_ok : forall (A : Type) (ds : list (list (string * A))) key v,
  tables_get key ds = Some v <-> first_match ds key v.
Proof.
  intros A ds key v. unfold first_match. induction ds as [|d ds IH]; cbn [tables_get].
  - split; [discriminate|]. intros (pre & d & post & E & _). destruct pre; discriminate.
  - destruct (has key d) eqn:H.
    + rewrite assoc_maps. split.
      * intros M. exists [], d, ds. split; [reflexivity|]. split; [exact M|]. intros d' v' [].
      * intros (pre & d' & post & E & M & F). destruct pre as [|p pre].
        -- injection E as -> _. exact M.
        -- injection E as -> _. apply has_maps in H. destruct H as [w W]. exfalso. exact (F p w (or_introl eq_refl) W).
    + rewrite IH. pose proof (proj1 (has_false _ _ _) H) as H'. split.
      * intros (pre & d' & post & -> & M & F). exists (d :: pre), d', post. split; [reflexivity|]. split; [exact M|].
        intros d'' v' [<-|I]; [apply H'|apply F; exact I].
      * intros (pre & d' & post & E & M & F). destruct pre as [|p pre].
        -- injection E as -> _. exfalso. exact (H' v M).
        -- injection E as <- ->. exists pre, d', post. split; [reflexivity|]. split; [exact M|].
           intros d'' v' I. apply F. right. exact I.
Qed.

Lemma cd_getitem_ok : forall (A : Type) ns (ds : list (list (string * A))) item v,
  cd_getitem ns ds item = Some v <-> exists key, stands_for ns item key /\ first_match ds key v.
Proof.
  intros A ns ds item v. unfold cd_getitem. destruct (cd_key ns item) as [key|] eqn:K.
  - rewrite tables_get_ok. apply cd_key_ok in K. split; [exists key; split; assumption|].
    intros (key' & K' & F). apply cd_key_ok in K, K'. assert (key' = key) by congruence. subst. exact F.
  - split; [discriminate|]. intros (key & K' & _). apply cd_key_ok in K'. congruence.
Qed.

Lemma tables_has : forall (A : Type) (ds : list (list (string * A))) key,
  existsb (has key) ds = true <-> exists v, tables_get key ds = Some v.
Proof.
  intros A ds key. induction ds as [|d ds IH]; cbn [existsb tables_get].
  - split; [discriminate|]. intros [v E]. discriminate.
  - destruct (has key d) eqn:H; cbn [orb].
    + split; [|reflexivity]. intros _. unfold has in H. destruct (assoc key d) as [v|]; [exists v; reflexivity|discriminate].
    + exact IH.
Qed.

Lemma cd_contains_ok : forall (A : Type) ns (ds : list (list (string * A))) item,
  cd_contains ns ds item = true <-> exists v, cd_getitem ns ds item = Some v.
Proof.
  intros A ns ds item. unfold cd_contains, cd_getitem. destruct (cd_key ns item) as [key|].
  - apply tables_has.
  - split; [discriminate|]. intros [v E]. discriminate.
Qed.

(** * Imports *)

Lemma in_number : forall (A : Type) (l : list A) i j x,
  In (j, x) (number i l) <-> (i <= j /\ nth_error l (j - i) = Some x).
Proof.
  intros A l. induction l as [|y l IH]; intros i j x; cbn [number In].
  - split; [intros []|]. intros [_ E]. destruct (j - i); discriminate.
  - rewrite IH. split.
    + intros [[= -> ->]|[L E]].
      * split; [lia|]. rewrite Nat.sub_diag. reflexivity.
      * split; [lia|]. replace (j - i) with (S (j - S i)) by lia. exact E.
    + intros [L E]. destruct (Nat.eq_dec i j) as [->|N].
      * left. rewrite Nat.sub_diag in E. cbn in E. injection E as ->. reflexivity.
      * right. split; [lia|]. replace (j - i) with (S (j - S i)) in E by lia. exact E.
Qed.

Section Graph.
  Context (body : nat -> list item).
  Local Notation from_imports := (from_imports body).
  Local Notation included := (included body).
  Local Notation view_module := (view_module body).
  Local Notation view_names := (view_names body).
  Local Notation base := (base body).

  Lemma star_in : forall m m', In (Star m') (from_imports m) <-> In (IStar m') (body m).
  Proof.
    intros m m'. unfold ImpModel.from_imports. rewrite in_flat_map. split.
    - intros ([j i] & I & H). apply in_number in I. destruct I as [_ I]. destruct i; cbn in H.
      + destruct H.
      + destruct H as [H|[]]; discriminate.
      + destruct H as [[= ->]|[]]. apply nth_error_In in I. exact I.
    - intros I. apply In_nth_error in I. destruct I as [j I]. exists (j, IStar m'). split; [|left; reflexivity].
      apply in_number. split; [lia|]. rewrite Nat.sub_0_r. exact I.
  Qed.

  Lemma view_in : forall m v, In (View v) (from_imports m) <->
    (fst v = m /\ exists m' ns, nth_error (body m) (snd v) = Some (IFrom m' ns)).
  Proof.
    intros m [a b]. unfold ImpModel.from_imports. rewrite in_flat_map. cbn [fst snd]. split.
    - intros ([j i] & I & H). apply in_number in I. destruct I as [_ I]. rewrite Nat.sub_0_r in I. destruct i; cbn in H.
      + destruct H.
      + destruct H as [[= <- <-]|[]]. split; [reflexivity|]. eauto.
      + destruct H as [H|[]]; discriminate.
    - intros (-> & m' & ns & E). exists (b, IFrom m' ns). split; [|left; reflexivity].
      apply in_number. split; [lia|]. rewrite Nat.sub_0_r. exact E.
  Qed.

  Lemma view_is : forall v m' ns, nth_error (body (fst v)) (snd v) = Some (IFrom m' ns) ->
    view_module v = m' /\ view_names v = ns.
  Proof. intros v m' ns E. unfold ImpModel.view_module, ImpModel.view_names, view_source. rewrite E. split; reflexivity. Qed.

  Lemma view_in_body : forall m v, In (View v) (from_imports m) ->
    In (IFrom (view_module v) (view_names v)) (body m).
  Proof.
    intros m v I. apply view_in in I. destruct I as (<- & m' & ns & E). destruct (view_is _ _ _ E) as [-> ->].
    eapply nth_error_In. exact E.
  Qed.

  Lemma mref_eqb_ok : forall a b, mref_eqb a b = true <-> a = b.
  Proof.
    intros [m|[m i]] [m'|[m' i']]; cbn [mref_eqb]; try (split; discriminate).
    - rewrite Nat.eqb_eq. split; congruence.
    - rewrite andb_true_iff, !Nat.eqb_eq. split; [intros [-> ->]; reflexivity|intros [= -> ->]; split; reflexivity].
  Qed.

  Lemma excluded_ok : forall r ex, existsb (mref_eqb r) ex = true <-> In r ex.
  Proof.
    intros r ex. rewrite existsb_exists. split.
    - intros (x & I & E). apply mref_eqb_ok in E. subst. exact I.
    - intros I. exists r. split; [exact I|]. apply mref_eqb_ok. reflexivity.
  Qed.

  Lemma concat_some : forall (A B : Type) (h : B -> option (list A)) l r,
    concat_results (map h l) = Some r ->
    (forall b, In b l -> exists x, h b = Some x /\ incl x r) /\
    (forall a, In a r -> exists b x, In b l /\ h b = Some x /\ In a x).
  Proof.
    intros A B h l. induction l as [|b l IH]; intros r; cbn [map concat_results].
    - intros [= <-]. split; [intros b []|intros a []].
    - destruct (h b) as [x|] eqn:Hb; [|discriminate]. destruct (concat_results (map h l)) as [y|]; [|discriminate].
      intros [= <-]. destruct (IH y eq_refl) as [F G]. split.
      + intros c [<-|I].
        * exists x. split; [exact Hb|]. apply incl_appl, incl_refl.
        * destruct (F c I) as (z & E & J). exists z. split; [exact E|]. apply incl_appr. exact J.
      + intros a I. apply in_app_or in I. destruct I as [I|I].
        * exists b, x. split; [left; reflexivity|]. split; assumption.
        * destruct (G a I) as (c & z & J & E & K). exists c, z. split; [right; exact J|]. split; assumption.
  Qed.

  Lemma concat_none : forall (A B : Type) (h : B -> option (list A)) l,
    concat_results (map h l) = None <-> exists b, In b l /\ h b = None.
  Proof.
    intros A B h l. induction l as [|b l IH]; cbn [map concat_results].
    - split; [discriminate|]. intros (b & [] & _).
    - destruct (h b) as [x|] eqn:Hb.
      + destruct (concat_results (map h l)) as [y|].
        * split; [discriminate|]. intros (c & [<-|I] & E); [congruence|].
          assert (@None (list A) = None) as T by reflexivity. destruct IH as [_ IH].
          discriminate IH. exists c. split; assumption.
        * split; [|reflexivity]. intros _. destruct (proj1 IH eq_refl) as (c & I & E). exists c. split; [right; exact I|exact E].
      + split; [|reflexivity]. intros _. exists b. split; [left; reflexivity|exact Hb].
  Qed.

  Lemma concat_ext : forall (A B : Type) (h h' : B -> option (list A)) l,
    (forall b, In b l -> h b = h' b) -> concat_results (map h l) = concat_results (map h' l).
  Proof. intros A B h h' l E. f_equal. apply map_ext_in. exact E. Qed.

  (** One step of [included]. *)
  Definition step (f : nat) (ex : list mref) (p : import) : option (list mref) :=
    match p with
    | Star m => included f ex (Orig m)
    | View v => if existsb (mref_eqb (Copy v)) ex then Some [] else included f ex (Copy v)
    end.

  Lemma included_S : forall f ex r, included (S f) ex r =
    match concat_results (map (step f (ex ++ [r])) (from_imports (base r))) with
    | None => None
    | Some l => Some (r :: l)
    end.
  Proof. reflexivity. Qed.

  Lemma included_mono : forall f f' ex r l, included f ex r = Some l -> f <= f' -> included f' ex r = Some l.
  Proof.
    induction f as [|f IH]; intros f' ex r l H L; [discriminate|]. destruct f' as [|f']; [lia|].
    rewrite included_S in *. destruct (concat_results (map (step f (ex ++ [r])) (from_imports (base r)))) as [l'|] eqn:C; [|discriminate].
    assert (E : concat_results (map (step f' (ex ++ [r])) (from_imports (base r)))
      = concat_results (map (step f (ex ++ [r])) (from_imports (base r)))).
    { apply concat_ext. intros p I. destruct (proj1 (concat_some _ _ _ _ _ C) p I) as (x & X & _). rewrite X.
      destruct p as [m|v]; cbn [step] in *.
      - eapply IH; [exact X|lia].
      - destruct (existsb (mref_eqb (Copy v)) (ex ++ [r])); [exact X|]. eapply IH; [exact X|lia]. }
    rewrite E, C. exact H.
  Qed.

  (** What is included comes from the imports. *)
  Lemma included_head : forall f ex r l, included f ex r = Some l -> exists l', l = r :: l'.
  Proof.
    intros [|f] ex r l H; [discriminate|]. rewrite included_S in H.
    destruct (concat_results _) as [l'|]; [|discriminate]. injection H as <-. eauto.
  Qed.

  Lemma reaches_trans : forall a b c, reaches body a b -> reaches body b c -> reaches body a c.
  Proof. intros a b c H. induction H; [auto|]. intros K. econstructor; [eassumption|]. auto. Qed.

  Lemma import_star_edge : forall m m', In (Star m') (from_imports m) -> imports body m m'.
  Proof. intros m m' I. right. apply star_in. exact I. Qed.
  Lemma import_view_edge : forall m v, In (View v) (from_imports m) -> imports body m (view_module v).
  Proof. intros m v I. left. exists (view_names v). apply view_in_body. exact I. Qed.

  Lemma included_reach : forall f ex r l, included f ex r = Some l -> forall r', In r' l ->
    reaches body (base r) (base r') /\
    (r' = r \/ forall v, r' = Copy v -> reaches body (base r) (fst v) /\ In (View v) (from_imports (fst v))).
  Proof.
    induction f as [|f IH]; intros ex r l H r' I; [discriminate|]. rewrite included_S in H.
    destruct (concat_results _) as [l'|] eqn:C; [|discriminate]. injection H as <-. destruct I as [<-|I].
    - split; [constructor|]. left. reflexivity.
    - destruct (proj2 (concat_some _ _ _ _ _ C) r' I) as (p & x & J & E & K). destruct p as [m|v]; cbn [step] in E.
      + destruct (IH _ _ _ E r' K) as [R P]. cbn [ImpModel.base] in *. pose proof (import_star_edge _ _ J) as ED. split.
        * econstructor; eassumption.
        * right. intros v V. destruct P as [->|P]; [discriminate|]. destruct (P v V) as [P1 P2].
          split; [econstructor; eassumption|exact P2].
      + destruct (existsb _ _); [injection E as <-; destruct K|]. destruct (IH _ _ _ E r' K) as [R P].
        cbn [ImpModel.base] in *. pose proof (import_view_edge _ _ J) as ED. split.
        * econstructor; eassumption.
        * right. intros w W. destruct P as [->|P].
          -- injection W as ->. assert (fst w = base r) by (apply view_in in J; tauto). split; [rewrite H; constructor|].
             rewrite H. exact J.
          -- destruct (P w W) as [P1 P2]. split; [econstructor; eassumption|exact P2].
  Qed.

  (** ** Everything that is found is a candidate *)
  Definition cand (r : mref) (x : string) (n : node) : Prop :=
    match r with
    | Orig m => may_mean body true m x n
    | Copy v => exists y, stands_for (view_names v) x y /\ may_mean body true (view_module v) y n
    end.

  Lemma included_cand : forall f ex r l, included f ex r = Some (r :: l) ->
    forall own r' x n, In r' l -> cand r' x n -> may_mean body own (base r) x n.
  Proof.
    induction f as [|f IH]; intros ex r l H own r' x n I C; [discriminate|]. rewrite included_S in H.
    destruct (concat_results _) as [l'|] eqn:CC; [|discriminate]. injection H as ->.
    destruct (proj2 (concat_some _ _ _ _ _ CC) r' I) as (p & z & J & E & K). destruct p as [m|v]; cbn [step] in E.
    - destruct (included_head _ _ _ _ E) as [z' ->]. apply star_in in J. eapply mm_star; [exact J|].
      destruct K as [<-|K]; [exact C|]. exact (IH _ _ _ E true r' x n K C).
    - destruct (existsb _ _); [injection E as <-; destruct K|].
      destruct (included_head _ _ _ _ E) as [z' ->]. apply view_in_body in J. destruct K as [<-|K].
      + destruct C as (y & S & M). eapply mm_from; eassumption.
      + eapply mm_leak; [exact J|]. exact (IH _ _ _ E false r' x n K C).
  Qed.

  Lemma included_cand_all : forall f m l, included f [] (Orig m) = Some l ->
    forall r x n, In r l -> cand r x n -> may_mean body true m x n.
  Proof.
    intros f m l H r x n I C. destruct (included_head _ _ _ _ H) as [l' ->]. destruct I as [<-|I]; [exact C|].
    exact (included_cand _ _ _ _ H true r x n I C).
  Qed.

  Lemma fields_in : forall m k x n, In (x, n) (fields body m k) <-> In (IDef k x n) (body m).
  Proof.
    intros m k x n. unfold fields. rewrite in_flat_map. split.
    - intros (i & I & H). destruct i as [k' y n'| |]; try destruct H. destruct (kind_eqb k' k) eqn:K; [|destruct H].
      assert (k' = k) by (destruct k', k; cbn in K; congruence). destruct H as [[= -> ->]|[]]. subst. exact I.
    - intros I. exists (IDef k x n). split; [exact I|]. replace (kind_eqb k k) with true by (destruct k; reflexivity).
      left. reflexivity.
  Qed.

  Lemma maps_in : forall (A : Type) (d : list (string * A)) x v, maps d x v -> In (x, v) d.
  Proof. induction 1; [left; reflexivity|right; assumption]. Qed.

  Lemma in_has : forall (A : Type) (d : list (string * A)) x v, In (x, v) d -> has x d = true.
  Proof.
    intros A d x v. unfold has. induction d as [|[y w] d IH]; intros I; [destruct I|]. cbn [assoc].
    destruct (String.eqb_spec x y) as [->|N]; [reflexivity|]. destruct I as [[= -> ->]|I]; [congruence|]. exact (IH I).
  Qed.

  Lemma search_some : forall (A : Type) (p : A -> option bool) l a,
    search p l = Some (Some a) -> In a l /\ p a = Some true.
  Proof.
    intros A p l a. induction l as [|b l IH]; cbn [search]; [discriminate|].
    destruct (p b) as [[|]|] eqn:P; [|intros H; apply IH in H; destruct H; split; [right|]; assumption|discriminate].
    intros [= <-]. split; [left; reflexivity|exact P].
  Qed.

  Lemma search_found : forall (A : Type) (p : A -> option bool) l a,
    (forall b, In b l -> p b <> None) -> In a l -> p a = Some true -> exists b, search p l = Some (Some b).
  Proof.
    intros A p l a. induction l as [|b l IH]; intros N I E; [destruct I|]. cbn [search].
    destruct (p b) as [[|]|] eqn:P.
    - exists b. reflexivity.
    - destruct I as [->|I]; [congruence|]. apply IH; try assumption. intros c J. apply N. right. exact J.
    - exfalso. apply (N b); [left; reflexivity|exact P].
  Qed.

  Lemma search_total : forall (A : Type) (p : A -> option bool) l,
    (forall b, In b l -> p b <> None) -> search p l <> None.
  Proof.
    intros A p l. induction l as [|b l IH]; intros N; cbn [search]; [discriminate|].
    destruct (p b) as [[|]|] eqn:P; [discriminate|apply IH; intros c J; apply N; right; exact J|].
    exfalso. apply (N b); [left; reflexivity|exact P].
  Qed.

  Lemma search_ext : forall (A : Type) (p q : A -> option bool) l,
    (forall b, In b l -> p b = q b) -> search p l = search q l.
  Proof.
    intros A p q l. induction l as [|b l IH]; intros E; cbn [search]; [reflexivity|].
    rewrite (E b) by (left; reflexivity). rewrite IH; [reflexivity|]. intros c I. apply E. right. exact I.
  Qed.

  Lemma view_get_cand : forall f v k x n, view_get body f v k x = Some (Some n) -> cand (Copy v) x n.
  Proof.
    induction f as [|f IH]; intros v k x n H; [discriminate|]. cbn [view_get] in H.
    destruct (cd_key (view_names v) x) as [key|] eqn:K; [|discriminate]. apply cd_key_ok in K.
    destruct (included f [] (Orig (view_module v))) as [rs|] eqn:R; [|discriminate].
    destruct (search _ rs) as [[r|]|] eqn:S; try discriminate.
    apply search_some in S. destruct S as [I _]. exists key. split; [exact K|].
    apply (included_cand_all _ _ _ R r); [exact I|]. destruct r as [m|w].
    - injection H as H. apply assoc_maps in H. apply maps_in in H. apply fields_in in H. cbn. econstructor. exact H.
    - exact (IH _ _ _ _ H).
  Qed.

  Lemma ref_get_cand : forall f r k x n, ref_get body f r k x = Some (Some n) -> cand r x n.
  Proof.
    intros f [m|v] k x n H.
    - injection H as H. apply assoc_maps in H. apply maps_in in H. apply fields_in in H. cbn. econstructor. exact H.
    - exact (view_get_cand _ _ _ _ _ H).
  Qed.

  Lemma contents_get_cand : forall f r x n, contents_get body f r x = Some (Some n) -> cand r x n.
  Proof.
    intros f r x n H. unfold contents_get in H. destruct (search _ all_kinds) as [[k|]|]; try discriminate.
    exact (ref_get_cand _ _ _ _ _ H).
  Qed.

  Lemma find_entry_cand : forall f x rs n, find_entry body f x rs = Some (Some n) ->
    exists r, In r rs /\ cand r x n.
  Proof.
    intros f x rs n H. unfold find_entry in H. destruct (search _ rs) as [[r|]|] eqn:S; try discriminate.
    apply search_some in S. exists r. split; [tauto|]. exact (contents_get_cand _ _ _ _ H).
  Qed.

  Theorem resolve_sound : forall f g m x n, resolve body f g m x = Some (Some n) ->
    may_mean body true m x n \/ may_mean body true g x n.
  Proof.
    intros f g m x n H. unfold resolve in H. destruct (included f [] (Orig m)) as [rs|] eqn:R; [|discriminate].
    apply find_entry_cand in H. destruct H as (r & I & C). apply in_app_or in I. destruct I as [I|[<-|[]]].
    - left. exact (included_cand_all _ _ _ R _ _ _ I C).
    - right. exact C.
  Qed.

  Theorem resolve_attr_sound : forall f m x n, resolve_attr body f m x = Some (Some n) -> may_mean body true m x n.
  Proof.
    intros f m x n H. unfold resolve_attr in H. destruct (included f [] (Orig m)) as [rs|] eqn:R; [|discriminate].
    apply find_entry_cand in H. destruct H as (r & I & C). exact (included_cand_all _ _ _ R _ _ _ I C).
  Qed.

  (** ** Import graphs without cycles *)
  Section Acyclic.
    Context (rank : nat -> nat) (A : acyclic body rank).

    Lemma reach_rank : forall a b, reaches body a b -> rank b <= rank a.
    Proof. intros a b H. induction H as [m|m m' m'' E _ IH]; [lia|]. pose proof (A _ _ E). lia. Qed.

    Lemma included_total : forall f ex r, rank (base r) < f -> included f ex r <> None.
    Proof.
      induction f as [|f IH]; intros ex r L; [lia|]. rewrite included_S.
      destruct (concat_results _) as [l|] eqn:C; [discriminate|]. apply concat_none in C. destruct C as (p & I & E).
      exfalso. destruct p as [m|v]; cbn [step] in E.
      - revert E. apply IH. cbn [ImpModel.base]. pose proof (A _ _ (import_star_edge _ _ I)). lia.
      - destruct (existsb _ _); [discriminate|]. revert E. apply IH. cbn [ImpModel.base].
        pose proof (A _ _ (import_view_edge _ _ I)). lia.
    Qed.

    (** The excluded modules do not matter. *)
    Lemma included_ex : forall f ex ex' r,
      (forall c, In c ex -> rank (base r) < rank (base c) \/ exists m, c = Orig m) ->
      (forall c, In c ex' -> rank (base r) < rank (base c) \/ exists m, c = Orig m) ->
      included f ex r = included f ex' r.
    Proof.
      induction f as [|f IH]; intros ex ex' r L L'; [reflexivity|]. rewrite !included_S.
      replace (concat_results (map (step f (ex' ++ [r])) (from_imports (base r))))
        with (concat_results (map (step f (ex ++ [r])) (from_imports (base r)))); [reflexivity|].
      apply concat_ext. intros p I.
      assert (K : forall e q, (forall c, In c e -> rank (base r) < rank (base c) \/ exists m, c = Orig m) ->
        rank (base q) < rank (base r) ->
        forall c, In c (e ++ [r]) -> rank (base q) < rank (base c) \/ exists m, c = Orig m).
      { intros e q E B c J. apply in_app_or in J. destruct J as [J|[<-|[]]]; [|left; exact B].
        destruct (E c J) as [X|X]; [left; lia|right; exact X]. }
      destruct p as [m|v]; cbn [step].
      - pose proof (A _ _ (import_star_edge _ _ I)) as B. apply IH; apply K; assumption.
      - pose proof (A _ _ (import_view_edge _ _ I)) as B.
        assert (N : forall e, (forall c, In c e -> rank (base r) < rank (base c) \/ exists m, c = Orig m) ->
          existsb (mref_eqb (Copy v)) (e ++ [r]) = false).
        { intros e E. apply not_true_iff_false. rewrite excluded_ok. intros J.
          destruct (K e (Copy v) E B (Copy v) J) as [X|[m X]]; [lia|discriminate]. }
        rewrite !N by assumption. apply IH; apply K; assumption.
    Qed.

    (** Views in the tables of a view belong to modules further down. *)
    Lemma view_lower : forall f m rs w, included f [] (Orig m) = Some rs -> In (Copy w) rs ->
      rank (view_module w) < rank m.
    Proof.
      intros f m rs w R I. destruct (included_reach _ _ _ _ R _ I) as [_ [E|P]]; [discriminate|].
      destruct (P w eq_refl) as [Q V]. apply reach_rank in Q. pose proof (A _ _ (import_view_edge _ _ V)).
      cbn [ImpModel.base] in Q. lia.
    Qed.

    Lemma view_not_self : forall f v rs w, included f [] (Orig (view_module v)) = Some rs -> In (Copy w) rs ->
      mref_eqb (Copy w) (Copy v) = false.
    Proof.
      intros f v rs w R I. apply not_true_iff_false. rewrite mref_eqb_ok. intros [= ->].
      pose proof (view_lower _ _ _ _ R I). lia.
    Qed.

    Lemma view_contains_total : forall f v k x, S (rank (view_module v)) < f -> view_contains body f v k x <> None.
    Proof.
      induction f as [|f IH]; intros v k x L; [lia|]. cbn [view_contains].
      destruct (cd_key _ x) as [key|]; [|discriminate].
      destruct (included f [] (Orig (view_module v))) as [rs|] eqn:R.
      - destruct (search _ rs) as [[r|]|] eqn:S; try discriminate. exfalso. revert S. apply search_total.
        intros [m|w] I; [discriminate|]. destruct (mref_eqb _ _); [discriminate|]. apply IH.
        pose proof (view_lower _ _ _ _ R I). lia.
      - exfalso. revert R. apply included_total. cbn [ImpModel.base]. lia.
    Qed.

    (** Without cycles the test that skips the view itself makes no difference. *)
    Lemma view_search : forall f v k key rs, included f [] (Orig (view_module v)) = Some rs ->
      search (fun r => match r with
                       | Orig m => Some (has key (fields body m k))
                       | Copy w => if mref_eqb (Copy w) (Copy v) then Some false else view_contains body f w k key
                       end) rs = search (fun r => ref_contains body f r k key) rs.
    Proof.
      intros f v k key rs R. apply search_ext. intros [m|w] I; [reflexivity|].
      rewrite (view_not_self _ _ _ _ R I). reflexivity.
    Qed.

    Lemma view_contains_get : forall f v k x, view_contains body f v k x = Some true ->
      exists n, view_get body f v k x = Some (Some n).
    Proof.
      induction f as [|f IH]; intros v k x H; [discriminate|]. cbn [view_contains view_get] in *.
      destruct (cd_key _ x) as [key|]; [|discriminate].
      destruct (included f [] (Orig (view_module v))) as [rs|] eqn:R; [|discriminate].
      rewrite (view_search _ _ _ _ _ R) in H. destruct (search _ rs) as [[r|]|] eqn:S; try discriminate.
      apply search_some in S. destruct S as [_ S]. destruct r as [m|w]; cbn [ref_contains] in S.
      - injection S as S. unfold has in S. destruct (assoc key (fields body m k)) as [n|]; [exists n; reflexivity|discriminate].
      - apply IH. exact S.
    Qed.

    Lemma view_get_contains : forall f v k x n, view_get body f v k x = Some (Some n) ->
      view_contains body f v k x = Some true.
    Proof.
      intros [|f] v k x n H; [discriminate|]. cbn [view_contains view_get] in *.
      destruct (cd_key _ x) as [key|]; [|discriminate].
      destruct (included f [] (Orig (view_module v))) as [rs|] eqn:R; [|discriminate].
      rewrite (view_search _ _ _ _ _ R). destruct (search _ rs) as [[r|]|]; [reflexivity|discriminate|discriminate].
    Qed.

    Lemma view_get_total : forall f v k x, S (rank (view_module v)) < f -> view_get body f v k x <> None.
    Proof.
      induction f as [|f IH]; intros v k x L; [lia|]. cbn [view_get].
      destruct (cd_key _ x) as [key|]; [|discriminate].
      destruct (included f [] (Orig (view_module v))) as [rs|] eqn:R.
      - destruct (search _ rs) as [[[m|w]|]|] eqn:S; try discriminate.
        + apply search_some in S. destruct S as [I _]. apply IH. pose proof (view_lower _ _ _ _ R I). lia.
        + exfalso. revert S. apply search_total. intros [m|w] I; [discriminate|]. cbn [ref_contains].
          apply view_contains_total. pose proof (view_lower _ _ _ _ R I). lia.
      - exfalso. revert R. apply included_total. cbn [ImpModel.base]. lia.
    Qed.

    (** ** What Python binds is found *)
    Inductive bound : nat -> string -> node -> Prop :=
    | b_def : forall m k x n, In (IDef k x n) (body m) -> bound m x n
    | b_from : forall m m' ns x y n, In (IFrom m' ns) (body m) -> stands_for ns x y -> bound m' y n -> bound m x n
    | b_star : forall m m' x n, In (IStar m') (body m) -> bound m' x n -> bound m x n.

    Lemma import_names_app : forall ns ns' e em, import_names e em (ns ++ ns') = import_names (import_names e em ns) em ns'.
    Proof. induction ns as [|[y a] ns IH]; intros ns' e em; [reflexivity|]. cbn [app import_names]. apply IH. Qed.

    Lemma import_names_assoc : forall ns e em x, import_names e em ns x =
      match assoc x (cd_names ns) with Some y => em y | None => e x end.
    Proof.
      intros ns e em x. induction ns as [|[y a] ns IH] using rev_ind; [reflexivity|].
      rewrite import_names_app, cd_names_snoc. cbn [import_names assoc fst]. unfold new_name. cbn [fst snd].
      destruct (String.eqb x _); [reflexivity|exact IH].
    Qed.

    Lemma run_bound : forall e l e', run body e l e' -> forall x n, e' x = Some n ->
      e x = Some n \/
      (exists k, In (IDef k x n) l) \/
      (exists m' ns y, In (IFrom m' ns) l /\ stands_for ns x y /\ bound m' y n) \/
      (exists m', In (IStar m') l /\ bound m' x n).
    Proof.
      intros e l e' H. induction H as [e|e k y w l e' _ IH|e m ns l em e' H1 IH1 D _ IH2|e m l em e' H1 IH1 _ IH2];
        intros x n E.
      - left. exact E.
      - destruct (IH x n E) as [B|[(k' & I)|[(m' & ns & z & I & S)|(m' & I & B)]]].
        + unfold bind in B. destruct (String.eqb_spec x y) as [->|N].
          * injection B as ->. right. left. exists k. left. reflexivity.
          * left. exact B.
        + right. left. exists k'. right. exact I.
        + right. right. left. exists m', ns, z. split; [right; exact I|exact S].
        + right. right. right. exists m'. split; [right; exact I|exact B].
      - assert (BM : forall y w, em y = Some w -> bound m y w).
        { intros y w Y. destruct (IH1 y w Y) as [B|[(k' & I)|[(m' & ns' & z & I & S & B)|(m' & I & B)]]].
          - discriminate.
          - econstructor. exact I.
          - eapply b_from; eassumption.
          - eapply b_star; eassumption. }
        destruct (IH2 x n E) as [B|[(k' & I)|[(m' & ns' & z & I & S)|(m' & I & B)]]].
        + rewrite import_names_assoc in B. destruct (assoc x (cd_names ns)) as [y|] eqn:Y; [|left; exact B].
          right. right. left. exists m, ns, y. split; [left; reflexivity|]. split; [|apply BM; exact B].
          right. apply assoc_names. exact Y.
        + right. left. exists k'. right. exact I.
        + right. right. left. exists m', ns', z. split; [right; exact I|exact S].
        + right. right. right. exists m'. split; [right; exact I|exact B].
      - assert (BM : forall y w, em y = Some w -> bound m y w).
        { intros y w Y. destruct (IH1 y w Y) as [B|[(k' & I)|[(m' & ns' & z & I & S & B)|(m' & I & B)]]].
          - discriminate.
          - econstructor. exact I.
          - eapply b_from; eassumption.
          - eapply b_star; eassumption. }
        destruct (IH2 x n E) as [B|[(k' & I)|[(m' & ns' & z & I & S)|(m' & I & B)]]].
        + unfold import_star in B. destruct (is_public x); [|left; exact B].
          destruct (em x) as [w|] eqn:W; [|left; exact B]. injection B as ->.
          right. right. right. exists m. split; [left; reflexivity|]. apply BM. exact W.
        + right. left. exists k'. right. exact I.
        + right. right. left. exists m', ns', z. split; [right; exact I|exact S].
        + right. right. right. exists m'. split; [right; exact I|exact B].
    Qed.

    Lemma python_bound : forall m x n, python_means body m x (Some n) -> bound m x n.
    Proof.
      intros m x n (e & R & E). destruct (run_bound _ _ _ R x n E) as [B|[(k' & I)|[(m' & ns' & z & I & S & B)|(m' & I & B)]]].
      - discriminate.
      - econstructor. exact I.
      - eapply b_from; eassumption.
      - eapply b_star; eassumption.
    Qed.

    (** Every list of included modules contains those of its imports. *)
    Lemma included_sub_star : forall f m m' l, rank m < f -> included f [] (Orig m) = Some l ->
      In (IStar m') (body m) -> exists l', included f [] (Orig m') = Some l' /\ incl l' l.
    Proof.
      intros f m m' l L R I. destruct f as [|f]; [lia|]. pose proof R as R0. rewrite included_S in R.
      destruct (concat_results _) as [z|] eqn:C; [|discriminate]. injection R as <-.
      apply star_in in I. destruct (proj1 (concat_some _ _ _ _ _ C) _ I) as (x & X & J). cbn [step] in X.
      assert (ED : rank m' < rank m) by (apply (A m m'); apply import_star_edge; exact I).
      exists x. split; [|apply incl_tl; exact J].
      rewrite (included_ex f _ [] (Orig m')) in X.
      - eapply included_mono; [exact X|lia].
      - intros c Q. destruct Q as [<-|[]]. right. exists m. reflexivity.
      - intros c [].
    Qed.

    Lemma included_sub_view : forall f m i m' ns l, rank m < f -> included f [] (Orig m) = Some l ->
      nth_error (body m) i = Some (IFrom m' ns) -> In (Copy (m, i)) l.
    Proof.
      intros f m i m' ns l L R N. destruct f as [|f]; [lia|]. rewrite included_S in R.
      destruct (concat_results _) as [z|] eqn:C; [|discriminate]. injection R as <-. right.
      assert (I : In (View (m, i)) (from_imports m)) by (apply view_in; split; [reflexivity|]; eauto).
      destruct (proj1 (concat_some _ _ _ _ _ C) _ I) as (x & X & J). cbn [step] in X.
      cbn [existsb app mref_eqb orb] in X. apply J. destruct (included_head _ _ _ _ X) as [x' ->]. left. reflexivity.
    Qed.

    Lemma bound_found : forall m x n, bound m x n -> forall f, rank m + 1 < f ->
      forall rs, included f [] (Orig m) = Some rs -> exists r k, In r rs /\ ref_contains body f r k x = Some true.
    Proof.
      intros m x n B. induction B as [m k x n I|m m' ns x y n I S B IH|m m' x n I B IH]; intros f L rs R.
      - exists (Orig m), k. destruct (included_head _ _ _ _ R) as [l ->]. split; [left; reflexivity|].
        cbn [ref_contains]. f_equal. eapply in_has. apply fields_in. exact I.
      - destruct (In_nth_error _ _ I) as [i N]. exists (Copy (m, i)).
        assert (V : view_module (m, i) = m' /\ view_names (m, i) = ns) by (apply view_is; exact N).
        destruct V as [V1 V2]. assert (ED : rank m' < rank m) by (apply A; left; eauto).
        destruct f as [|f]; [lia|].
        destruct (included f [] (Orig m')) as [rs'|] eqn:R';
          [|exfalso; revert R'; apply included_total; cbn [ImpModel.base]; lia].
        destruct (IH f ltac:(lia) rs' R') as (r & k & J & T). exists k.
        split; [eapply included_sub_view; [|exact R|exact N]; lia|].
        cbn [ref_contains view_contains]. rewrite V2. apply cd_key_ok in S. rewrite S, V1, R'.
        rewrite <- V1 in R'. rewrite (view_search _ _ _ _ _ R').
        destruct (search_found _ (fun r0 => ref_contains body f r0 k y) rs' r) as [b ->]; try assumption; [|reflexivity].
        intros [m0|w] J0; [discriminate|]. cbn [ref_contains]. apply view_contains_total.
        pose proof (view_lower _ _ _ _ R' J0). rewrite V1 in H. lia.
      - destruct (included_sub_star f m m' rs ltac:(lia) R I) as (l' & R' & J).
        assert (ED : rank m' < rank m) by (apply A; right; exact I).
        destruct (IH f ltac:(lia) l' R') as (r & k & K & T). exists r, k. split; [apply J; exact K|exact T].
    Qed.

    Lemma ref_contains_total : forall f m rs r k x, rank m + 1 < f -> included f [] (Orig m) = Some rs -> In r rs ->
      ref_contains body f r k x <> None.
    Proof.
      intros f m rs [m'|w] k x L R I; [discriminate|]. cbn [ref_contains]. apply view_contains_total.
      pose proof (view_lower _ _ _ _ R I). lia.
    Qed.

    Lemma kinds_all : forall k, In k all_kinds.
    Proof. intros []; cbn; tauto. Qed.

    Lemma contents_total : forall f m rs r x, rank m + 1 < f -> included f [] (Orig m) = Some rs -> In r rs ->
      contents_contains body f r x <> None.
    Proof.
      intros f m rs r x L R I. unfold contents_contains. destruct (search _ all_kinds) as [[k|]|] eqn:S; try discriminate.
      exfalso. revert S. apply search_total. intros k _. eapply ref_contains_total; eassumption.
    Qed.

    Lemma contents_found : forall f r x, contents_contains body f r x = Some true ->
      exists n, contents_get body f r x = Some (Some n).
    Proof.
      intros f r x H. unfold contents_contains, contents_get in *. destruct (search _ all_kinds) as [[k|]|] eqn:S; try discriminate.
      apply search_some in S. destruct S as [_ S]. destruct r as [m|v]; cbn [ref_contains ref_get] in *.
      - injection S as S. unfold has in S. destruct (assoc x (fields body m k)) as [n|]; [exists n; reflexivity|discriminate].
      - exact (view_contains_get _ _ _ _ S).
    Qed.

    Lemma contents_true : forall f m rs r k x, rank m + 1 < f -> included f [] (Orig m) = Some rs -> In r rs ->
      ref_contains body f r k x = Some true -> contents_contains body f r x = Some true.
    Proof.
      intros f m rs r k x L R I T. unfold contents_contains.
      destruct (search_found _ (fun k0 => ref_contains body f r k0 x) all_kinds k) as [b ->]; [|apply kinds_all|exact T|reflexivity].
      intros k' _. eapply ref_contains_total; eassumption.
    Qed.

    Lemma resolve_total : forall f g m x, rank m + 1 < f -> resolve body f g m x <> None.
    Proof.
      intros f g m x L. unfold resolve. destruct (included f [] (Orig m)) as [rs|] eqn:R;
        [|exfalso; revert R; apply included_total; cbn [ImpModel.base]; lia].
      assert (T : forall r, In r (rs ++ [Orig g]) -> contents_contains body f r x <> None).
      { intros r I. apply in_app_or in I. destruct I as [I|[<-|[]]]; [eapply contents_total; eassumption|].
        unfold contents_contains. destruct (search _ all_kinds) as [[k|]|] eqn:S; try discriminate.
        exfalso. revert S. apply search_total. discriminate. }
      unfold find_entry. destruct (search _ (rs ++ [Orig g])) as [[r|]|] eqn:S.
      - apply search_some in S. destruct S as [_ S]. destruct (contents_found _ _ _ S) as [n ->]. discriminate.
      - discriminate.
      - exfalso. revert S. apply search_total. exact T.
    Qed.

    Lemma search_app : forall (B : Type) (p : B -> option bool) l l' b,
      search p l = Some (Some b) -> search p (l ++ l') = Some (Some b).
    Proof.
      intros B p l l' b. induction l as [|c l IH]; cbn [search app]; [discriminate|].
      destruct (p c) as [[|]|]; [auto|exact IH|discriminate].
    Qed.

    Theorem resolve_complete : forall f g m x n, rank m + 1 < f -> python_means body m x (Some n) ->
      (forall n', may_mean body true m x n' -> n' = n) ->
      resolve body f g m x = Some (Some n) /\ resolve_attr body f m x = Some (Some n).
    Proof.
      intros f g m x n L P U. pose proof (python_bound _ _ _ P) as B.
      unfold resolve, resolve_attr. destruct (included f [] (Orig m)) as [rs|] eqn:R;
        [|exfalso; revert R; apply included_total; cbn [ImpModel.base]; lia].
      destruct (bound_found _ _ _ B f L rs R) as (r & k & I & T).
      pose proof (contents_true _ _ _ _ _ _ L R I T) as T'.
      destruct (search_found _ (fun r0 => contents_contains body f r0 x) rs r) as [b S]; try assumption.
      { intros b J. eapply contents_total; eassumption. }
      pose proof (search_some _ _ _ _ S) as [J T2]. destruct (contents_found _ _ _ T2) as [w W].
      assert (w = n). { apply U. apply (included_cand_all _ _ _ R b); [exact J|]. exact (contents_get_cand _ _ _ _ W). }
      subst w. unfold find_entry. rewrite (search_app _ _ _ [Orig g] _ S), S. split; exact W.
    Qed.
  End Acyclic.

  (** ** Termination with cycles *)
  Section Terminates.
    Context (rank : nat -> nat) (A : star_acyclic body rank).
    Context (ms : list nat) (R : nat) (bound_R : forall m, In m ms -> rank m <= R).
    Context (closed : forall m m', In m ms -> imports body m m' -> In m' ms).

    Definition views : list (nat * nat) :=
      flat_map (fun m => flat_map (fun p => match p with View v => [v] | Star _ => [] end) (from_imports m)) ms.
    Definition open (ex : list mref) : nat :=
      List.length (filter (fun v => negb (existsb (mref_eqb (Copy v)) ex)) views).

    Lemma filter_le : forall (B : Type) (p q : B -> bool) l, (forall b, q b = true -> p b = true) ->
      List.length (filter q l) <= List.length (filter p l).
    Proof.
      intros B p q l H. induction l as [|b l IH]; [reflexivity|]. cbn [filter]. pose proof (H b).
      destruct (q b), (p b); cbn [List.length]; try lia; discriminate (H0 eq_refl).
    Qed.
    Lemma filter_lt : forall (B : Type) (p q : B -> bool) l b, (forall c, q c = true -> p c = true) ->
      In b l -> p b = true -> q b = false -> List.length (filter q l) < List.length (filter p l).
    Proof.
      intros B p q l b H. induction l as [|c l IH]; intros I P Q; [destruct I|]. cbn [filter].
      destruct I as [->|I].
      - rewrite P, Q. cbn [List.length]. pose proof (filter_le _ p q l H). lia.
      - pose proof (IH I P Q). pose proof (H c). destruct (q c), (p c); cbn [List.length]; try lia; discriminate (H1 eq_refl).
    Qed.

    Lemma open_le : forall ex r, open (ex ++ [r]) <= open ex.
    Proof.
      intros ex r. apply filter_le. intros v. rewrite !negb_true_iff, <- !not_true_iff_false, !excluded_ok.
      intros N I. apply N. apply in_or_app. left. exact I.
    Qed.
    Lemma open_lt : forall ex v, In v views -> ~ In (Copy v) ex -> open (ex ++ [Copy v]) < open ex.
    Proof.
      intros ex v I N. unfold open. eapply filter_lt; [|exact I| |].
      - intros w. rewrite !negb_true_iff, <- !not_true_iff_false, !excluded_ok. intros K J. apply K.
        apply in_or_app. left. exact J.
      - rewrite negb_true_iff, <- not_true_iff_false, excluded_ok. exact N.
      - rewrite negb_false_iff, excluded_ok. apply in_or_app. right. left. reflexivity.
    Qed.

    Lemma included_terminates_aux : forall f ex r, In (base r) ms ->
      open (ex ++ [r]) * S R + rank (base r) < f -> included f ex r <> None.
    Proof.
      induction f as [|f IH]; intros ex r M L; [lia|]. rewrite included_S.
      destruct (concat_results _) as [l|] eqn:C; [discriminate|]. apply concat_none in C. destruct C as (p & I & E).
      exfalso. destruct p as [m|v]; cbn [step] in E.
      - revert E. assert (M' : In m ms) by (eapply closed; [exact M|]; apply import_star_edge; exact I).
        apply IH; [exact M'|]. cbn [ImpModel.base].
        assert (rank m < rank (base r)) by (apply A; apply star_in; exact I).
        pose proof (open_le (ex ++ [r]) (Orig m)). nia.
      - destruct (existsb _ _) eqn:X; [discriminate|]. revert E.
        assert (M' : In (view_module v) ms) by (eapply closed; [exact M|]; apply import_view_edge; exact I).
        apply IH; [exact M'|]. cbn [ImpModel.base]. pose proof (bound_R _ M').
        assert (open ((ex ++ [r]) ++ [Copy v]) < open (ex ++ [r])).
        { apply open_lt; [|rewrite <- excluded_ok, X; discriminate]. unfold views. apply in_flat_map.
          exists (base r). split; [exact M|]. apply in_flat_map. exists (View v). split; [exact I|left; reflexivity]. }
        nia.
    Qed.

    Lemma included_terminates : forall m, In m ms -> exists f0, forall f, f0 <= f -> included f [] (Orig m) <> None.
    Proof.
      intros m M. exists (S (open ([] ++ [Orig m]) * S R + rank m)). intros f L.
      apply included_terminates_aux; [exact M|]. cbn [ImpModel.base]. lia.
    Qed.
  End Terminates.

  Lemma included_diverges : forall (P : nat -> Prop),
    (forall m, P m -> exists m', P m' /\ In (IStar m') (body m)) ->
    forall f ex m, P m -> included f ex (Orig m) = None.
  Proof.
    intros P H. induction f as [|f IH]; intros ex m M; [reflexivity|]. rewrite included_S.
    destruct (H m M) as (m' & M' & I). replace (concat_results _) with (@None (list mref)); [reflexivity|].
    symmetry. apply concat_none. exists (Star m'). split; [apply star_in; exact I|]. cbn [step]. apply IH. exact M'.
  Qed.
End Graph.
