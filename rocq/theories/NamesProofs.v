From Coq Require Import List NArith Bool Lia Arith FinFun.
From Verif Require Import NamesModel NamesSpec.
Import ListNotations.
Open Scope N_scope.

(** Little-endian base-256 value, the closed form of the loop. *)
Fixpoint value256 (s : pystring) : N :=
  match s with [] => 0 | c :: s' => c + 256 * value256 s' end.

Lemma string_to_int_loop_value : forall s i r,
  string_to_int_loop s i r = r + N.pow 256 i * value256 s.
Proof.
  induction s as [|c s IH]; intros i r; cbn [string_to_int_loop value256].
  - lia.
  - rewrite IH. rewrite N.add_1_r, N.pow_succ_r'. ring.
Qed.

Lemma string_to_int_value : forall s, string_to_int s = value256 s.
Proof. intros s. unfold string_to_int. rewrite string_to_int_loop_value. rewrite N.pow_0_r. lia. Qed.

Lemma size_div256 : forall i, 0 < i -> (N.size_nat (i / 256) < N.size_nat i)%nat.
Proof.
  intros i Hi.
  assert (Hs : N.size_nat i = N.to_nat (N.size i)) by (destruct i; [reflexivity|simpl]; induction p; simpl; try rewrite IHp; lia).
  assert (Hs2 : N.size_nat (i/256) = N.to_nat (N.size (i/256))).
  { destruct (i/256); [reflexivity|simpl]; induction p; simpl; try rewrite IHp; lia. }
  rewrite Hs, Hs2.
  assert (N.size (i/256) < N.size i); [|lia].
  destruct (N.eq_dec (i/256) 0) as [E|E].
  - rewrite E. simpl. rewrite N.size_log2 by lia. lia.
  - rewrite !N.size_log2 by lia.
    replace 256 with (2^8) by reflexivity.
    rewrite <- N.shiftr_div_pow2.
    rewrite N.log2_shiftr.
    assert (8 <= N.log2 i).
    { apply N.log2_le_pow2; [lia|]. 
      destruct (N.le_gt_cases (2^8) i); [assumption|].
      exfalso. apply E. apply N.div_small. exact H. }
    lia.
Qed.

Lemma int_to_string_loop_spec : forall s fuel acc,
  Forall (fun c => 1 <= c <= 255) s ->
  (N.size_nat (value256 s) <= fuel)%nat ->
  int_to_string_loop fuel (value256 s) acc = acc ++ s.
Proof.
  induction s as [|c s IH]; intros fuel acc HF Hf.
  - destruct fuel; simpl; rewrite app_nil_r; reflexivity.
  - inversion HF as [|? ? Hc Hs]; subst.
    assert (Hpos : 0 < value256 (c :: s)) by (cbn [value256]; lia).
    assert (Hd : value256 (c::s) / 256 = value256 s).
    { cbn [value256]. symmetry. apply N.div_unique with (r := c); lia. }
    assert (Hm : value256 (c::s) mod 256 = c).
    { cbn [value256]. symmetry. apply N.mod_unique with (q := value256 s); lia. }
    pose proof (size_div256 _ Hpos) as Hlt. rewrite Hd in Hlt.
    destruct fuel as [|fuel]; [lia|].
    cbn [int_to_string_loop].
    replace (0 <? value256 (c::s)) with true by (symmetry; apply N.ltb_lt; lia).
    rewrite Hd, Hm. rewrite IH by (assumption || lia).
    rewrite <- app_assoc. reflexivity.
Qed.

Lemma round_trip : forall s, latin1_name s -> int_to_string (string_to_int s) = s.
Proof.
  intros s Hs. rewrite string_to_int_value. unfold int_to_string.
  rewrite int_to_string_loop_spec; [reflexivity| |lia].
  exact Hs.
Qed.

Lemma string_to_int_inj : forall s t, latin1_name s -> latin1_name t ->
  string_to_int s = string_to_int t -> s = t.
Proof.
  intros s t Hs Ht E. rewrite <- (round_trip s Hs), <- (round_trip t Ht), E. reflexivity.
Qed.

Lemma definedness_exact : forall ds x,
  Forall latin1_name ds -> latin1_name x ->
  (check_var_defined x (fold_right set_var_defined [] ds) = true <-> In x ds).
Proof.
  intros ds x Hds Hx. unfold check_var_defined. rewrite existsb_exists. split.
  - intros [i [Hin He]]. apply N.eqb_eq in He. subst i.
    induction ds as [|d ds IH]; simpl in Hin; [contradiction|].
    inversion Hds; subst. destruct Hin as [E|Hin].
    + left. apply string_to_int_inj; auto.
    + right. auto.
  - intros Hin. exists (string_to_int x). split; [|apply N.eqb_refl].
    clear Hds. induction ds as [|d ds IH]; [contradiction|].
    simpl. destruct Hin as [->|Hin]; [left; reflexivity|right; auto].
Qed.

(** Dotted names. *)
Lemma encode_rev_app : forall a b d,
  encode_rev (a ++ b) d = encode_rev b (encode_rev a d).
Proof. induction a as [|n a IH]; intros b d; simpl; [reflexivity|]. rewrite IH. reflexivity. Qed.

Lemma encode_rev_some : forall a v, exists w, encode_rev a (Some v) = Some w.
Proof. induction a as [|n a IH]; intros v; simpl; [eauto|]. apply IH. Qed.

Lemma extract_identifier_cons : forall n ns,
  extract_identifier (n :: ns) =
  Some (match extract_identifier ns with
        | None => Single (string_to_int n)
        | Some d => Combine (Single (string_to_int n)) d
        end).
Proof.
  intros n ns. unfold extract_identifier. simpl rev. rewrite encode_rev_app. simpl.
  destruct (encode_rev (rev ns) None); reflexivity.
Qed.

Lemma extract_identifier_inj : forall ns ms,
  Forall latin1_name ns -> Forall latin1_name ms ->
  extract_identifier ns = extract_identifier ms -> ns = ms.
Proof.
  induction ns as [|n ns IH]; intros [|m ms] Hn Hm E.
  - reflexivity.
  - rewrite extract_identifier_cons in E. discriminate.
  - rewrite extract_identifier_cons in E. discriminate.
  - rewrite !extract_identifier_cons in E. injection E as E.
    inversion Hn; inversion Hm; subst.
    destruct (extract_identifier ns) eqn:En, (extract_identifier ms) eqn:Em; inversion E; subst.
    + f_equal; [apply string_to_int_inj; auto|apply IH; auto; congruence].
    + f_equal; [apply string_to_int_inj; auto|apply IH; auto; congruence].
Qed.

(** ---------------------------------------------------------------- *)
Section FreshProofs.
  Variable name : Type.
  Variable name_eqb : name -> name -> bool.
  Variable suffix : name -> nat -> name.
  Hypothesis eqb_spec : forall a b, name_eqb a b = true <-> a = b.
  Hypothesis suffix_inj : forall n i j, suffix n i = suffix n j -> i = j.

  Local Notation contains := (contains_name name name_eqb).
  Local Notation fresh := (get_fresh_name name name_eqb suffix).

  Lemma contains_In : forall s tbl n, contains s tbl n = true <-> In n tbl.
  Proof.
    induction s as [|s IH]; intros tbl n; simpl; [|apply IH].
    rewrite existsb_exists. split.
    - intros [x [Hx E]]. apply eqb_spec in E. subst. exact Hx.
    - intros H. exists n. split; [exact H|]. apply eqb_spec. reflexivity.
  Qed.

  Lemma add_name_cons : forall s tbl n, add_name name s tbl n = n :: tbl.
  Proof. induction s as [|s IH]; intros; simpl; auto. Qed.

  Lemma fresh_loop_some : forall fuel s tbl n c r,
    fresh_loop name name_eqb suffix fuel s tbl n c = Some r -> ~ In r tbl.
  Proof.
    induction fuel as [|fuel IH]; intros s tbl n c r; simpl; [discriminate|].
    destruct (contains s tbl (suffix n c)) eqn:E; intros H.
    - eapply IH; eauto.
    - inversion H; subst. intros Hin. apply (contains_In s) in Hin. congruence.
  Qed.

  Lemma fresh_loop_none : forall fuel s tbl n c,
    fresh_loop name name_eqb suffix fuel s tbl n c = None ->
    forall k, (k < fuel)%nat -> In (suffix n (c + k)) tbl.
  Proof.
    induction fuel as [|fuel IH]; intros s tbl n c H k Hk; [lia|].
    simpl in H. destruct (contains s tbl (suffix n c)) eqn:E; [|discriminate].
    destruct k as [|k].
    - rewrite Nat.add_0_r. apply (contains_In s). exact E.
    - replace (c + S k)%nat with (S c + k)%nat by lia. eapply IH; eauto. lia.
  Qed.

  Lemma fresh_loop_terminates : forall s tbl n,
    fresh_loop name name_eqb suffix (S (length tbl)) s tbl n 0 <> None.
  Proof.
    intros s tbl n H.
    pose proof (fresh_loop_none _ _ _ _ _ H) as Hin.
    assert (Hincl : incl (map (suffix n) (seq 0 (S (length tbl)))) tbl).
    { intros x Hx. apply in_map_iff in Hx. destruct Hx as [k [<- Hk]].
      apply in_seq in Hk. specialize (Hin k). apply Hin. lia. }
    assert (Hnd : NoDup (map (suffix n) (seq 0 (S (length tbl))))).
    { apply FinFun.Injective_map_NoDup; [|apply seq_NoDup].
      intros a b E. eapply suffix_inj; eauto. }
    pose proof (NoDup_incl_length Hnd Hincl) as L.
    rewrite map_length, seq_length in L. lia.
  Qed.

  Lemma get_fresh_total : forall s tbl n, exists r, fresh s tbl n = Some (r, r :: tbl) /\ ~ In r tbl.
  Proof.
    intros s tbl n. unfold get_fresh_name.
    destruct (contains s tbl n) eqn:E.
    - destruct (fresh_loop name name_eqb suffix (S (length tbl)) s tbl n 0) as [r|] eqn:L.
      + exists r. rewrite add_name_cons. split; [reflexivity|]. eapply fresh_loop_some; eauto.
      + exfalso. eapply fresh_loop_terminates; eauto.
    - exists n. rewrite add_name_cons. split; [reflexivity|].
      intros H. apply (contains_In s) in H. congruence.
  Qed.

  Lemma requests_fresh : forall rs tbl, exists out tbl',
    requests name name_eqb suffix rs tbl = Some (out, tbl') /\
    length out = length rs /\
    NoDup out /\ (forall r, In r out -> ~ In r tbl) /\
    (forall x, In x tbl' <-> In x out \/ In x tbl).
  Proof.
    induction rs as [|[s n] rs IH]; intros tbl.
    - exists [], tbl. simpl. repeat split; auto; try constructor. intros [[]|H]; exact H.
    - destruct (get_fresh_total s tbl n) as [r [E Hr]].
      destruct (IH (r :: tbl)) as [out [tbl' [E' [Hlen [Hnd [Hout Htbl]]]]]].
      exists (r :: out), tbl'. simpl. rewrite E, E'. repeat split.
      + simpl. lia.
      + constructor; [|exact Hnd]. intros Hin. apply (Hout r Hin). left. reflexivity.
      + intros x [<-|Hx] Hin; [exact (Hr Hin)|]. apply (Hout x Hx). right. exact Hin.
      + intros H. apply Htbl in H. destruct H as [H|[H|H]]; auto.
      + intros [[H|H]|H]; apply Htbl; [right; left; exact H|left; exact H|right; right; exact H].
  Qed.

  (** The wish is granted when the name is free. *)
  Lemma get_fresh_keeps : forall s tbl n, ~ In n tbl -> fresh s tbl n = Some (n, n :: tbl).
  Proof.
    intros s tbl n H. unfold get_fresh_name.
    destruct (contains s tbl n) eqn:E.
    - apply contains_In in E. contradiction.
    - rewrite add_name_cons. reflexivity.
  Qed.

  (** SingletonFreshName. *)
  Lemma assoc_in : forall d n r, assoc_name name name_eqb d n = Some r -> In (n, r) d.
  Proof.
    intros d n r H. unfold assoc_name in H. destruct (find _ d) eqn:F; [|discriminate].
    inversion H; subst. apply find_some in F. destruct F as [F1 F2].
    apply eqb_spec in F2. destruct p; simpl in *; subst. exact F1.
  Qed.

  Definition dict_ok (d : list (name * name)) (tbl : list name) : Prop :=
    NoDup (map fst d) /\ NoDup (map snd d) /\ (forall n r, In (n, r) d -> In r tbl).

  Lemma assoc_none : forall d n, assoc_name name name_eqb d n = None -> ~ In n (map fst d).
  Proof.
    intros d n H Hin. unfold assoc_name in H. destruct (find _ d) eqn:F; [discriminate|].
    apply in_map_iff in Hin. destruct Hin as [[a b] [<- Hin]]. simpl in *.
    pose proof (find_none _ _ F _ Hin) as E. simpl in E.
    assert (name_eqb a a = true) by (apply eqb_spec; reflexivity). congruence.
  Qed.

  Lemma in_assoc : forall d n r, NoDup (map fst d) -> In (n, r) d ->
    assoc_name name name_eqb d n = Some r.
  Proof.
    intros d n r Hnd Hin. unfold assoc_name.
    destruct (find _ d) as [[a b]|] eqn:F.
    - apply find_some in F. destruct F as [F1 F2]. simpl in F2. apply eqb_spec in F2. subst a.
      simpl. f_equal.
      clear -Hnd Hin F1. induction d as [|[x y] d IH]; [contradiction|].
      simpl in Hnd. inversion Hnd as [|? ? Hx Hd]; subst.
      destruct Hin as [E|Hin], F1 as [E'|F1].
      + congruence.
      + exfalso. apply Hx. inversion E; subst. apply in_map_iff. exists (n, b). auto.
      + exfalso. apply Hx. inversion E'; subst. apply in_map_iff. exists (n, r). auto.
      + auto.
    - exfalso. pose proof (find_none _ _ F _ Hin) as E. simpl in E.
      assert (name_eqb n n = true) by (apply eqb_spec; reflexivity). congruence.
  Qed.

  Lemma singleton_calls_ok : forall ns s d tbl, dict_ok d tbl ->
    exists out d' tbl', singleton_calls name name_eqb suffix s d tbl ns = Some (out, d', tbl') /\
      dict_ok d' tbl' /\ incl d d' /\ length out = length ns /\
      (forall i n, nth_error ns i = Some n -> exists r, nth_error out i = Some r /\ In (n, r) d').
  Proof.
    induction ns as [|n ns IH]; intros s d tbl Hok.
    - exists [], d, tbl. simpl.
      refine (conj eq_refl (conj Hok (conj (fun _ H => H) (conj eq_refl _)))).
      intros [|i] m; discriminate.
    - simpl. unfold singleton_call. destruct (assoc_name name name_eqb d n) as [r|] eqn:A.
      + destruct (IH s d tbl Hok) as (out & d' & tbl' & E & Hok' & Hincl & Hlen & Hnth).
        exists (r :: out), d', tbl'. rewrite E.
        refine (conj eq_refl (conj Hok' (conj Hincl (conj _ _)))).
        * simpl. lia.
        * intros [|i] m Hm; simpl in Hm.
          -- inversion Hm; subst. exists r. split; [reflexivity|]. apply Hincl, assoc_in. exact A.
          -- apply Hnth. exact Hm.
      + destruct (get_fresh_total s tbl n) as [r [Ef Hr]]. rewrite Ef.
        assert (Hok2 : dict_ok ((n, r) :: d) (r :: tbl)).
        { destruct Hok as [H1 [H2 H3]]. split; [|split].
          - simpl. constructor; [apply assoc_none; exact A|exact H1].
          - simpl. constructor; [|exact H2]. intros Hin. apply in_map_iff in Hin.
            destruct Hin as [[a b] [Eb Hin]]. simpl in Eb. subst b. apply Hr. eapply H3; eauto.
          - intros a b [E|Hin]; [inversion E; left; reflexivity|right; eapply H3; eauto]. }
        destruct (IH s _ _ Hok2) as (out & d' & tbl' & E & Hok' & Hincl & Hlen & Hnth).
        exists (r :: out), d', tbl'. rewrite E.
        refine (conj eq_refl (conj Hok' (conj _ (conj _ _)))).
        * intros x Hx. apply Hincl. right. exact Hx.
        * simpl. lia.
        * intros [|i] m Hm; simpl in Hm.
          -- inversion Hm; subst. exists r. split; [reflexivity|]. apply Hincl. left. reflexivity.
          -- apply Hnth. exact Hm.
  Qed.

  (** Same wish, same answer; different wishes, different answers. *)
  Lemma singleton_function : forall s tbl ns out d' tbl' i j n m a b,
    singleton_calls name name_eqb suffix s [] tbl ns = Some (out, d', tbl') ->
    nth_error ns i = Some n -> nth_error ns j = Some m ->
    nth_error out i = Some a -> nth_error out j = Some b ->
    (n = m <-> a = b).
  Proof.
    intros s tbl ns out d' tbl' i j n m a b E Hn Hm Ha Hb.
    assert (Hok : dict_ok [] tbl).
    { split; [constructor|split; [constructor|intros ? ? []]]. }
    destruct (singleton_calls_ok ns s [] tbl Hok) as (o & d2 & t2 & E2 & Hok2 & _ & _ & Hnth).
    rewrite E in E2. inversion E2; subst o d2 t2. clear E2.
    destruct (Hnth _ _ Hn) as [r1 [Hr1 Hin1]]. destruct (Hnth _ _ Hm) as [r2 [Hr2 Hin2]].
    rewrite Ha in Hr1. rewrite Hb in Hr2. inversion Hr1; inversion Hr2; subst r1 r2.
    destruct Hok2 as [H1 [H2 _]]. split; intros ->.
    - pose proof (in_assoc _ _ _ H1 Hin1). pose proof (in_assoc _ _ _ H1 Hin2). congruence.
    - clear -H2 Hin1 Hin2. induction d' as [|[x y] d IH]; [contradiction|].
      simpl in H2. inversion H2 as [|? ? Hy Hd]; subst.
      destruct Hin1 as [E1|H1], Hin2 as [E2|H3].
      + congruence.
      + exfalso. apply Hy. inversion E1; subst. apply in_map_iff. exists (m, b). auto.
      + exfalso. apply Hy. inversion E2; subst. apply in_map_iff. exists (n, b). auto.
      + auto.
  Qed.
End FreshProofs.

(** Concrete strings: [name_k] determines [k]. *)
Lemma pystring_eqb_spec : forall a b, pystring_eqb a b = true <-> a = b.
Proof.
  induction a as [|x a IH]; intros [|y b]; simpl; split; try discriminate; auto.
  - rewrite andb_true_iff, N.eqb_eq, IH. intros [-> ->]. reflexivity.
  - intros E. inversion E; subst. rewrite N.eqb_refl. apply IH. reflexivity.
Qed.

(** Value of a decimal string. *)
Definition dec_val (s : pystring) : nat :=
  fold_left (fun v c => (10 * v + N.to_nat (c - 48))%nat) s 0%nat.

Lemma dec_val_app : forall acc v,
  fold_left (fun v c => (10 * v + N.to_nat (c - 48))%nat) acc v
  = (v * 10 ^ length acc + dec_val acc)%nat.
Proof.
  unfold dec_val. induction acc as [|c acc IH]; intros v; cbn [fold_left].
  - simpl. lia.
  - rewrite IH. rewrite (IH (10 * 0 + N.to_nat (c - 48))%nat). cbn [length]. rewrite Nat.pow_succ_r'.
    ring.
Qed.

Lemma str_nat_loop_val : forall fuel n acc, (n < fuel)%nat ->
  dec_val (str_nat_loop fuel n acc) = (n * 10 ^ length acc + dec_val acc)%nat.
Proof.
  induction fuel as [|fuel IH]; intros n acc Hf; [lia|].
  cbn [str_nat_loop].
  set (d := (48 + N.of_nat (n mod 10))).
  assert (Hd : N.to_nat (d - 48) = (n mod 10)%nat) by (unfold d; lia).
  assert (Hacc : dec_val (d :: acc) = ((n mod 10) * 10 ^ length acc + dec_val acc)%nat).
  { unfold dec_val at 1. cbn [fold_left]. rewrite dec_val_app. rewrite Hd. reflexivity. }
  pose proof (Nat.div_mod n 10 ltac:(lia)) as DM.
  destruct (n / 10)%nat as [|q] eqn:Q.
  - rewrite Hacc. f_equal. f_equal. lia.
  - rewrite IH.
    + rewrite Hacc. cbn [length]. rewrite Nat.pow_succ_r'. 
      replace (n)%nat with (10 * S q + n mod 10)%nat at 2 by lia. ring.
    + assert (n / 10 < n)%nat; [|lia]. apply Nat.div_lt; [|lia].
      destruct n; [simpl in Q; discriminate|lia].
Qed.

Lemma str_nat_inj : forall i j, str_nat i = str_nat j -> i = j.
Proof.
  intros i j E. apply (f_equal dec_val) in E. unfold str_nat in E.
  rewrite !str_nat_loop_val in E by lia. simpl in E. 
  change (dec_val []) with 0%nat in E. lia.
Qed.

Lemma py_suffix_inj : forall n i j, py_suffix n i = py_suffix n j -> i = j.
Proof.
  intros n i j E. unfold py_suffix in E. apply app_inv_head in E. inversion E as [E'].
  apply str_nat_inj. exact E'.
Qed.
