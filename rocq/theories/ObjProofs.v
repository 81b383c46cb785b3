(** Proofs about attributes. *)
From Coq Require Import List Bool Arith NArith ZArith QArith Lqa Lia.
From Verif Require Import NamesModel ObjModel ObjSpec.
Import ListNotations.
Local Open Scope nat_scope.

Lemma pystring_eqb_eq a b : pystring_eqb a b = true <-> a = b.
Proof.
  revert b. induction a as [|x a IH]; intros [|y b]; cbn [pystring_eqb]; split; intros H; try congruence.
  - apply andb_true_iff in H as (H1 & H2). apply N.eqb_eq in H1. apply IH in H2. congruence.
  - inversion H; subst. apply andb_true_iff. split; [apply N.eqb_refl|apply IH; reflexivity].
Qed.

Lemma pystring_eqb_refl a : pystring_eqb a a = true.
Proof. apply pystring_eqb_eq. reflexivity. Qed.

Lemma ends_dunder_snoc x a b : ends_dunder (x ++ [a; b]) = ((a =? underscore)%N && (b =? underscore)%N)%bool.
Proof.
  induction x as [|c x IH]; [reflexivity|]. rewrite <- IH. destruct x as [|d [|e x]]; reflexivity.
Qed.

Lemma ends_dunder_rev x : ends_dunder x = starts_dunder (rev x).
Proof.
  destruct x as [|b y _] using rev_ind; [reflexivity|]. destruct y as [|a z _] using rev_ind; [reflexivity|].
  rewrite <- app_assoc. cbn [app]. rewrite ends_dunder_snoc, rev_app_distr. cbn [rev app starts_dunder]. apply andb_comm.
Qed.

Lemma private_same x : is_mangled x = python_private x.
Proof.
  unfold is_mangled, python_private. rewrite <- ends_dunder_rev. destruct x as [|a [|b x]]; reflexivity.
Qed.

Lemma private_iff x : is_mangled x = true <->
  (exists r, x = underscore :: underscore :: r) /\ ~ (exists r, x = r ++ [underscore; underscore]).
Proof.
  rewrite private_same. unfold python_private. split.
  - destruct x as [|a [|b x]]; try discriminate. intros H. apply andb_true_iff in H as (H & H3).
    apply andb_true_iff in H as (H1 & H2). apply N.eqb_eq in H1, H2. subst. split; [eauto|].
    intros (r & E). rewrite E, ends_dunder_snoc in H3. discriminate.
  - intros ((r & E) & D). rewrite E at 1. rewrite N.eqb_refl. cbn [andb]. apply negb_true_iff.
    apply not_true_iff_false. intros H. apply D. clear E D. revert H. clear r.
    destruct x as [|b y _] using rev_ind; [discriminate|]. destruct y as [|a z _] using rev_ind; [discriminate|].
    rewrite <- app_assoc. cbn [app]. rewrite ends_dunder_snoc. intros H. apply andb_true_iff in H as (H1 & H2).
    apply N.eqb_eq in H1, H2. subst. eauto.
Qed.

Lemma mem_in x l : mem x l = true <-> In x l.
Proof.
  induction l as [|y l IH]; cbn [mem In]; [split; [discriminate|intros []]|].
  rewrite orb_true_iff, pystring_eqb_eq, IH. intuition congruence.
Qed.

Lemma vfield_eqb_eq f g : vfield_eqb f g = true <-> f = g.
Proof.
  destruct f as (a & x), g as (b & y). unfold vfield_eqb. cbn [fst snd].
  rewrite andb_true_iff, Nat.eqb_eq, pystring_eqb_eq. split; [intros (-> & ->); reflexivity|intros H; inversion H; auto].
Qed.

Lemma res_eqb_eq a b : res_eqb a b = true <-> a = b.
Proof.
  destruct a as [o f|o f], b as [o' f'|o' f']; cbn [res_eqb]; try (split; congruence);
  rewrite andb_true_iff, Nat.eqb_eq, vfield_eqb_eq; split; try (intros (-> & ->); reflexivity); intros H; inversion H; auto.
Qed.

Lemma res_eqb_refl a : res_eqb a a = true.
Proof. apply res_eqb_eq. reflexivity. Qed.

Lemma res_eqb_neq a b : a <> b -> res_eqb a b = false.
Proof. intros H. destruct (res_eqb a b) eqn:E; [apply res_eqb_eq in E; contradiction|reflexivity]. Qed.

Lemma qle_bool a b : Qle_bool a b = true -> (a <= b)%Q.
Proof. apply Qle_bool_iff. Qed.

Lemma qle_bool_false a b : Qle_bool a b = false -> (b < a)%Q.
Proof.
  intros H. destruct (Qlt_le_dec b a) as [L|L]; [exact L|]. apply Qle_bool_iff in L. congruence.
Qed.

(** ** Looking up fields *)
Section Lookup.
  Variable P : program.
  Hypothesis WF : wf_prog P.

  Lemma base_lt c k b : nth_error P c = Some k -> c_base k = Some b -> b < c.
  Proof. intros E B. exact (proj2 (WF c k E) b B). Qed.

  Lemma subclass_le c d : subclass P c d -> d <= c.
  Proof.
    induction 1 as [c|c k b d E B S IH]; [lia|]. pose proof (base_lt c k b E B). lia.
  Qed.

  Lemma subclass_trans a b c : subclass P a b -> subclass P b c -> subclass P a c.
  Proof. induction 1; [auto|]. intros. eapply sub_step; eauto. Qed.

  Lemma subclass_comparable d a b : subclass P d a -> subclass P d b -> subclass P a b \/ subclass P b a.
  Proof.
    intros S. revert b. induction S as [c|c k e d E B S IH]; intros b S'; [left; exact S'|].
    inversion S' as [|? k' e' ? E' B' S'']; subst.
    - right. eapply sub_step; eauto.
    - assert (k' = k) by congruence. subst k'. assert (e' = e) by congruence. subst e'. apply IH. exact S''.
  Qed.

  Lemma get_field_f_spec x f : forall c a, get_field_f f P c x = Some a -> subclass P c a /\ lists P a x.
  Proof.
    induction f as [|f IH]; intros c a E; [discriminate|]. cbn [get_field_f] in E.
    destruct (nth_error P c) as [k|] eqn:K; [|discriminate].
    destruct (mem x (c_fields k)) eqn:M.
    - inversion E; subst. split; [constructor|]. exists k. split; [exact K|apply mem_in; exact M].
    - destruct (c_base k) as [b|] eqn:B; [|discriminate]. destruct (IH b a E) as (S & L).
      split; [eapply sub_step; eauto|exact L].
  Qed.

  Lemma get_field_spec c x a : get_field P c x = Some a -> subclass P c a /\ lists P a x.
  Proof. apply get_field_f_spec. Qed.

  Lemma get_field_f_none x f : forall c, c < f -> get_field_f f P c x = None -> forall a, subclass P c a -> ~ lists P a x.
  Proof.
    induction f as [|f IH]; intros c L E a S; [lia|]. cbn [get_field_f] in E.
    intros (k' & K' & I').
    destruct (nth_error P c) as [k|] eqn:K.
    - destruct (mem x (c_fields k)) eqn:M; [discriminate|].
      inversion S as [|? k2 b ? E2 B2 S2]; subst.
      + rewrite K in K'. inversion K'; subst. apply mem_in in I'. congruence.
      + rewrite K in E2. inversion E2; subst. rewrite B2 in E. pose proof (base_lt c k2 b K B2).
        apply (IH b ltac:(lia) E a S2). exists k'. auto.
    - inversion S as [|? k2 b ? E2 B2 S2]; subst; congruence.
  Qed.

  Lemma get_field_none c x : get_field P c x = None -> forall a, subclass P c a -> ~ lists P a x.
  Proof. apply get_field_f_none. lia. Qed.

  Lemma inherited_lt c x d : inherited P c x = Some d -> d < c /\ subclass P c d /\ lists P d x.
  Proof.
    unfold inherited. destruct (is_mangled x); [discriminate|].
    destruct (nth_error P c) as [k|] eqn:K; [|discriminate]. destruct (c_base k) as [b|] eqn:B; [|discriminate].
    intros E. apply get_field_spec in E as (S & L). pose proof (base_lt c k b K B). pose proof (subclass_le b d S).
    split; [lia|]. split; [eapply sub_step; eauto|exact L].
  Qed.

  Lemma actual_f_spec x f : forall c, c < f -> lists P c x ->
    subclass P c (actual_f f P c x) /\ lists P (actual_f f P c x) x /\ inherited P (actual_f f P c x) x = None.
  Proof.
    induction f as [|f IH]; intros c L LI; [lia|]. cbn [actual_f].
    destruct (inherited P c x) as [d|] eqn:E.
    - apply inherited_lt in E as (Lt & S & LD). destruct (IH d ltac:(lia) LD) as (S2 & L2 & N2).
      split; [eapply subclass_trans; eauto|auto].
    - split; [constructor|auto].
  Qed.

  Lemma actual_spec c x : lists P c x ->
    subclass P c (actual P c x) /\ lists P (actual P c x) x /\ inherited P (actual P c x) x = None.
  Proof. apply actual_f_spec. lia. Qed.

  Lemma actual_mangled c x : is_mangled x = true -> actual P c x = c.
  Proof. intros M. unfold actual. cbn [actual_f]. unfold inherited. rewrite M. reflexivity. Qed.

  Lemma inherited_none_root a x b : inherited P a x = None -> is_mangled x = false ->
    subclass P a b -> lists P b x -> b = a.
  Proof.
    intros N M S L. inversion S as [|? k e ? E B S2]; subst; [reflexivity|]. exfalso.
    unfold inherited in N. rewrite M, E, B in N. exact (get_field_none e x N b S2 L).
  Qed.

  (** The fields of an object. *)
  Definition has_vfield (d : nat) (f : vfield) : Prop :=
    subclass P d (fst f) /\ lists P (fst f) (snd f) /\ declared P f = true.

  Lemma declared_iff f : declared P f = true <-> inherited P (fst f) (snd f) = None.
  Proof. unfold declared. destruct (inherited P (fst f) (snd f)); split; congruence. Qed.

  Lemma lookup_has u cur T x f d : subclass P d T -> lookup P u cur T x = Some f ->
    has_vfield d f /\ snd f = x /\ exists c, get_field P T x = Some c /\ fst f = actual P c x.
  Proof.
    intros S E. unfold lookup in E. destruct (get_field P T x) as [c|] eqn:G; [|discriminate].
    destruct (get_field_spec T x c G) as (S1 & L1). destruct (actual_spec c x L1) as (S2 & L2 & N2).
    match type of E with (if ?b then _ else _) = _ => destruct b; [discriminate|] end. inversion E; subst.
    unfold has_vfield. cbn [fst snd]. split; [|split; [reflexivity|exists c; auto]].
    split; [eapply subclass_trans; [exact S|eapply subclass_trans; eauto]|]. split; [exact L2|].
    apply declared_iff. exact N2.
  Qed.

  Lemma lookup_private cur T x f : lookup P false cur T x = Some f -> is_mangled x = true -> cur = Some (fst f).
  Proof.
    intros E M. unfold lookup in E. destruct (get_field P T x) as [c|] eqn:G; [|discriminate].
    rewrite M in E. cbn [negb andb] in E. destruct cur as [d|]; [|discriminate].
    destruct (Nat.eqb_spec (actual P c x) d) as [<-|]; [|discriminate]. cbn [negb] in E. inversion E; subst. reflexivity.
  Qed.

  Lemma lookup_own u cur T x f : lookup P u cur T x = Some f -> (u = true -> own P (Site u cur T x)) ->
    python_name P cur x = python_name P (Some (fst f)) x.
  Proof.
    intros E O. unfold python_name, own in *. cbn [s_attr] in *. rewrite <- private_same in *. destruct (is_mangled x) eqn:M; [|reflexivity].
    assert (cur = Some (fst f)) as ->; [|reflexivity].
    destruct u; [|exact (lookup_private cur T x f E M)].
    specialize (O eq_refl eq_refl). cbn [s_cur s_type s_attr] in O. rewrite O.
    unfold lookup in E. destruct (get_field P T x) as [c|]; [|discriminate]. cbn [negb andb] in E.
    inversion E; subst. cbn [fst]. rewrite (actual_mangled c x M). reflexivity.
  Qed.

  Definition vname (f : vfield) : pystring := python_name P (Some (fst f)) (snd f).

  Hypothesis NC : no_clash P.

  Lemma vname_inj d f g : has_vfield d f -> has_vfield d g -> vname f = vname g -> f = g.
  Proof.
    intros (S1 & L1 & D1) (S2 & L2 & D2) E. destruct f as (a & x), g as (b & y). unfold vname in E. cbn [fst snd] in *.
    destruct (NC d a b x y S1 S2 L1 L2 E) as (-> & M). rewrite <- private_same in M.
    destruct (is_mangled y) eqn:MY; [rewrite (M eq_refl); reflexivity|].
    apply declared_iff in D1. apply declared_iff in D2. cbn [fst snd] in *.
    destruct (subclass_comparable d a b S1 S2) as [S|S].
    - rewrite (inherited_none_root a y b D1 MY S L2). reflexivity.
    - rewrite (inherited_none_root b y a D2 MY S L1). reflexivity.
  Qed.

  Lemma same_attribute d s1 s2 f1 f2 :
    subclass P d (s_type s1) -> subclass P d (s_type s2) ->
    lookup P (s_union s1) (s_cur s1) (s_type s1) (s_attr s1) = Some f1 ->
    lookup P (s_union s2) (s_cur s2) (s_type s2) (s_attr s2) = Some f2 ->
    (s_union s1 = true -> own P s1) -> (s_union s2 = true -> own P s2) ->
    (f1 = f2 <-> python_name P (s_cur s1) (s_attr s1) = python_name P (s_cur s2) (s_attr s2)).
  Proof.
    destruct s1 as [u1 c1 T1 x1], s2 as [u2 c2 T2 x2]. cbn [s_union s_cur s_type s_attr]. intros S1 S2 E1 E2 O1 O2.
    destruct (lookup_has u1 c1 T1 x1 f1 d S1 E1) as (H1 & X1 & _). destruct (lookup_has u2 c2 T2 x2 f2 d S2 E2) as (H2 & X2 & _).
    rewrite (lookup_own u1 c1 T1 x1 f1 E1 O1), (lookup_own u2 c2 T2 x2 f2 E2 O2).
    split.
    - intros ->. rewrite <- X1, X2. reflexivity.
    - intros E. apply (vname_inj d f1 f2 H1 H2). unfold vname. rewrite X1, X2. exact E.
  Qed.

  Lemma all_fields_f_spec n : forall c f, c < n -> (In f (all_fields_f n P c) <-> has_vfield c f).
  Proof.
    induction n as [|n IH]; intros c f L; [lia|]. cbn [all_fields_f].
    destruct (nth_error P c) as [k|] eqn:K.
    - rewrite in_app_iff, filter_In, in_map_iff. split.
      + intros [((x & <- & I) & D)|I].
        * unfold has_vfield. cbn [fst snd]. split; [constructor|]. split; [exists k; auto|exact D].
        * destruct (c_base k) as [b|] eqn:B; [|destruct I]. pose proof (base_lt c k b K B).
          apply IH in I; [|lia]. destruct I as (S & R). split; [eapply sub_step; eauto|exact R].
      + intros (S & LI & D). inversion S as [|? k2 b ? E2 B2 S2]; subst.
        * left. split; [|exact D]. exists (snd f). split; [destruct f; reflexivity|].
          destruct LI as (k' & K' & I'). rewrite K in K'. inversion K'; subst. exact I'.
        * right. rewrite K in E2. inversion E2; subst. rewrite B2. pose proof (base_lt c k2 b K B2).
          apply IH; [lia|]. split; auto.
    - split; [intros []|]. intros (S & (k' & K' & I') & D). inversion S as [|? k2 b ? E2 B2 S2]; subst; congruence.
  Qed.

  Lemma all_fields_spec c f : In f (all_fields P c) <-> has_vfield c f.
  Proof. apply all_fields_f_spec. lia. Qed.

  Lemma nodup_map_pair (c : nat) (l : list pystring) : NoDup l -> NoDup (map (fun x => (c, x)) l).
  Proof.
    induction 1 as [|x l N ND IH]; cbn [map]; [constructor|]. constructor; [|exact IH].
    intros I. apply in_map_iff in I as (y & E & I). inversion E; subst. contradiction.
  Qed.

  Lemma nodup_app {A} (a b : list A) : NoDup a -> NoDup b -> (forall x, In x a -> ~ In x b) -> NoDup (a ++ b).
  Proof.
    induction 1 as [|x a N ND IH]; intros B D; [exact B|]. cbn [app]. constructor.
    - intros I. apply in_app_iff in I as [I|I]; [contradiction|]. exact (D x (or_introl eq_refl) I).
    - apply IH; [exact B|]. intros y I. apply D. right. exact I.
  Qed.

  Lemma all_fields_nodup n : forall c, c < n -> NoDup (all_fields_f n P c).
  Proof.
    induction n as [|n IH]; intros c L; [lia|]. cbn [all_fields_f].
    destruct (nth_error P c) as [k|] eqn:K; [|constructor].
    apply nodup_app.
    - apply NoDup_filter. apply nodup_map_pair. exact (proj1 (WF c k K)).
    - destruct (c_base k) as [b|] eqn:B; [|constructor]. pose proof (base_lt c k b K B). apply IH. lia.
    - intros f I I2. apply filter_In in I as (I & _). apply in_map_iff in I as (x & <- & I).
      destruct (c_base k) as [b|] eqn:B; [|destruct I2]. pose proof (base_lt c k b K B).
      apply all_fields_f_spec in I2; [|lia]. destruct I2 as (S & _). cbn [fst] in S. pose proof (subclass_le b c S). lia.
  Qed.
End Lookup.

(** ** Permissions *)
Fixpoint total (l : list perms) (r : res) : Q :=
  match l with [] => 0%Q | p :: l' => (p r + total l' r)%Q end.

Lemma total_update l i p r : i < length l -> (total (update l i p) r == total l r - nth i l none_held r + p r)%Q.
Proof.
  revert i. induction l as [|x l IH]; intros [|i] L; cbn [length] in L; try lia; cbn [update total nth].
  - lra.
  - specialize (IH i ltac:(lia)). lra.
Qed.

Lemma total_app l p r : (total (l ++ [p]) r == total l r + p r)%Q.
Proof. induction l as [|x l IH]; cbn [app total]; lra. Qed.

Definition nonneg (l : list perms) : Prop := forall p r, In p l -> (0 <= p r)%Q.

Lemma total_nonneg l r : nonneg l -> (0 <= total l r)%Q.
Proof.
  induction l as [|x l IH]; intros N; cbn [total]; [lra|].
  assert (0 <= x r)%Q by (apply N; left; reflexivity).
  assert (0 <= total l r)%Q by (apply IH; intros p r' I; apply N; right; exact I). lra.
Qed.

Lemma total_ge l i r : nonneg l -> i < length l -> (nth i l none_held r <= total l r)%Q.
Proof.
  revert i. induction l as [|x l IH]; intros [|i] N L; cbn [length] in L; try lia; cbn [total nth].
  - assert (0 <= total l r)%Q by (apply total_nonneg; intros p r' I; apply N; right; exact I). lra.
  - assert (0 <= x r)%Q by (apply N; left; reflexivity).
    assert (nth i l none_held r <= total l r)%Q by (apply IH; [intros p r' I; apply N; right; exact I|lia]). lra.
Qed.

Lemma in_update {A} (l : list A) i a x : In x (update l i a) -> x = a \/ In x l.
Proof.
  revert i. induction l as [|y l IH]; intros [|i] I; cbn [update] in I; auto.
  - destruct I as [<-|I]; [left; reflexivity|right; right; exact I].
  - destruct I as [<-|I]; [right; left; reflexivity|]. destruct (IH i I) as [->|I']; [left; reflexivity|right; right; exact I'].
Qed.

Lemma update_length {A} (l : list A) i a : length (update l i a) = length l.
Proof. revert i. induction l as [|y l IH]; intros [|i]; cbn [update length]; auto. Qed.

Lemma nonneg_update l i p : nonneg l -> (forall r, (0 <= p r)%Q) -> nonneg (update l i p).
Proof. intros N H q r I. apply in_update in I as [->|I]; [apply H|apply N; exact I]. Qed.

Lemma held_nonneg st i r : nonneg (holders st) -> (0 <= held st i r)%Q.
Proof.
  intros N. unfold held. destruct (lt_dec i (length (holders st))) as [L|L].
  - apply N. apply nth_In. exact L.
  - rewrite nth_overflow by lia. unfold none_held. lra.
Qed.

Lemma plus_at p r q r' : (plus p r q r' == p r' + (if res_eqb r r' then q else 0))%Q.
Proof. unfold plus. destruct (res_eqb r r'); lra. Qed.

Lemma minus_at p r q r' : (minus p r q r' == p r' - (if res_eqb r r' then q else 0))%Q.
Proof. unfold minus. destruct (res_eqb r r'); lra. Qed.

Lemma new_perms_spec o fs p r : NoDup fs ->
  (new_perms o fs p r == p r + match r with
                               | RMay o' f => if (o =? o') && existsb (vfield_eqb f) fs then 1 else 0
                               | RAcc _ _ => 0
                               end)%Q.
Proof.
  unfold new_perms. revert p. induction fs as [|g fs IH]; intros p ND; cbn [fold_left existsb].
  - destruct r as [o' f|o' f]; [lra|]. rewrite andb_false_r. lra.
  - inversion ND as [|? ? N ND']; subst. rewrite (IH (plus p (RMay o g) 1) ND').
    pose proof (plus_at p (RMay o g) 1 r) as E. rewrite E. destruct r as [o' f|o' f]; cbn [res_eqb]; [lra|].
    destruct (Nat.eqb_spec o o') as [<-|NE]; cbn [andb]; [|lra].
    destruct (vfield_eqb g f) eqn:G.
    + apply vfield_eqb_eq in G as <-. rewrite (proj2 (vfield_eqb_eq g g) eq_refl). cbn [orb].
      assert (X : existsb (vfield_eqb g) fs = false).
      { apply not_true_iff_false. intros X. apply existsb_exists in X as (h & I & E'). apply vfield_eqb_eq in E'. subst h. contradiction. }
      rewrite X. lra.
    + assert (X : vfield_eqb f g = false).
      { apply not_true_iff_false. intros X. apply vfield_eqb_eq in X as ->. rewrite (proj2 (vfield_eqb_eq g g) eq_refl) in G. discriminate. }
      rewrite X. cbn [orb]. destruct (existsb (vfield_eqb f) fs); lra.
Qed.
