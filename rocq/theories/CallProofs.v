(** Proofs about argument binding. *)
From Coq Require Import Bool Arith ZArith List Lia Permutation.
From Verif Require Import CallModel CallSpec.
Import ListNotations.

Lemma nth_ext_opt : forall {A} (l l' : list A), (forall k, nth_error l k = nth_error l' k) -> l = l'.
Proof.
  intros A l. induction l as [|x l IH]; intros [|y l'] H; auto.
  - specialize (H 0). discriminate.
  - specialize (H 0). discriminate.
  - pose proof (H 0) as H0. cbn in H0. injection H0 as ->. f_equal. apply IH. intros k. exact (H (S k)).
Qed.

Lemma nth_map : forall {A B} (f : A -> B) l k, nth_error (map f l) k = option_map f (nth_error l k).
Proof. intros A B f l. induction l as [|x l IH]; intros [|k]; cbn; auto. Qed.

Lemma nth_repeat : forall {A} (x : A) n k, nth_error (repeat x n) k = if k <? n then Some x else None.
Proof.
  intros A x n. induction n as [|n IH]; intros [|k]; cbn [repeat nth_error]; auto.
  rewrite IH. reflexivity.
Qed.

Lemma set_nth_length : forall {A} i (v : A) l, length (set_nth i v l) = length l.
Proof. intros A i v l. revert i. induction l as [|x l IH]; intros [|i]; cbn; auto. Qed.
Lemma set_nth_nth : forall {A} i (v : A) l k, i < length l ->
  nth_error (set_nth i v l) k = if k =? i then Some v else nth_error l k.
Proof.
  intros A i v l. revert i. induction l as [|x l IH]; intros [|i] [|k] H; cbn in *; try lia; auto.
  rewrite IH by lia. reflexivity.
Qed.

Lemma index_of_some : forall x l i, index_of x l = Some i -> nth_error l i = Some x /\ i < length l.
Proof.
  intros x l. induction l as [|y l IH]; intros i H; [discriminate|]. cbn [index_of] in H.
  destruct (Nat.eqb_spec x y) as [->|].
  - injection H as <-. split; [reflexivity|cbn; lia].
  - destruct (index_of x l) as [j|]; [|discriminate]. injection H as <-. destruct (IH j eq_refl) as (A & B).
    split; [exact A|cbn; lia].
Qed.
Lemma index_of_none : forall x l, index_of x l = None -> ~ In x l.
Proof.
  intros x l. induction l as [|y l IH]; intros H; [auto|]. cbn [index_of] in H.
  destruct (Nat.eqb_spec x y) as [->|NE]; [discriminate|].
  destruct (index_of x l); [discriminate|]. intros [E|I]; [congruence|]. exact (IH eq_refl I).
Qed.
Lemma index_of_notin : forall x l, ~ In x l -> index_of x l = None.
Proof.
  intros x l H. destruct (index_of x l) as [i|] eqn:E; [|reflexivity]. exfalso. apply H.
  apply index_of_some in E as (E & _). exact (nth_error_In _ _ E).
Qed.

Definition kw_expr (k : kwarg) : nat := match k with KNamed _ e => e | KDict e _ => e end.
Definition is_key (keys : list nat) (x : nat) : bool := existsb (Nat.eqb x) keys.

Lemma is_key_in : forall keys x, is_key keys x = true <-> In x keys.
Proof.
  intros keys x. unfold is_key. rewrite existsb_exists. split.
  - intros (y & I & E). apply Nat.eqb_eq in E. subst. exact I.
  - intros I. exists x. split; [exact I|apply Nat.eqb_refl].
Qed.
Lemma is_key_index : forall keys x, is_key keys x = match index_of x keys with Some _ => true | None => false end.
Proof.
  intros keys x. destruct (index_of x keys) as [i|] eqn:E.
  - apply is_key_in. apply index_of_some in E as (E & _). exact (nth_error_In _ _ E).
  - apply index_of_none in E. destruct (is_key keys x) eqn:K; [|reflexivity]. apply is_key_in in K. contradiction.
Qed.

Lemma named_cons : forall x e ks, named (KNamed x e :: ks) = (x, SArg e) :: named ks.
Proof. reflexivity. Qed.
Lemma named_names : forall ks, Forall simple ks -> map fst (named ks) = map kw_name ks.
Proof.
  intros ks F. induction F as [|k ks H F IH]; [reflexivity|]. destruct k; [|contradiction].
  rewrite named_cons. cbn. rewrite IH. reflexivity.
Qed.
Lemma find_named_none : forall x K, ~ In x (map fst K) -> find_named x K = None.
Proof.
  intros x K. induction K as [|[y v] K IH]; intros H; [reflexivity|]. cbn in *.
  destruct (Nat.eqb_spec x y); [subst; tauto|]. apply IH. tauto.
Qed.
Lemma find_named_in : forall x K, find_named x K = None -> ~ In x (map fst K).
Proof.
  intros x K. induction K as [|[y v] K IH]; intros H; [auto|]. cbn in *.
  destruct (Nat.eqb_spec x y); [discriminate|]. intros [E|I]; [congruence|]. exact (IH H I).
Qed.

Lemma nodup_nth : forall (l : list nat) i j x, NoDup l -> nth_error l i = Some x -> nth_error l j = Some x -> i = j.
Proof.
  intros l i j x N A B. apply (proj1 (NoDup_nth_error l) N).
  - apply nth_error_Some. congruence.
  - congruence.
Qed.

(** ** Keyword arguments *)
Lemma named_args_spec : forall keys kw ks args tr a k, NoDup keys -> Forall simple ks ->
  NoDup (map fst (named ks)) -> length args = length keys ->
  named_args keys kw ks args = (tr, a, k) ->
  length a = length keys /\
  (forall i x, nth_error keys i = Some x ->
     nth_error a i = match find_named x (named ks) with Some v => Some (Some v) | None => nth_error args i end) /\
  tr = map kw_expr (filter (fun c => is_key keys (kw_name c)) ks) /\
  k = if kw then map (fun c => (Some (kw_name c), kw_expr c)) (filter (fun c => negb (is_key keys (kw_name c))) ks) else [].
Proof.
  intros keys kw ks. induction ks as [|c ks IH]; intros args tr a k NK F ND LA H; cbn [named_args] in H.
  - injection H as <- <- <-. repeat split; auto. destruct kw; reflexivity.
  - inversion_clear F as [|? ? S F']. destruct c as [x e|]; [|contradiction].
    rewrite named_cons in ND. cbn [map fst] in ND. inversion_clear ND as [|? ? NI ND'].
    cbn [filter kw_name]. rewrite is_key_index.
    destruct (index_of x keys) as [i0|] eqn:IX.
    + apply index_of_some in IX as (IX & LI).
      destruct (named_args keys kw ks (set_nth i0 (Some (SArg e)) args)) as [[tr' a'] k'] eqn:R.
      injection H as <- <- <-.
      assert (LA' : length (set_nth i0 (Some (SArg e)) args) = length keys) by (rewrite set_nth_length; exact LA).
      destruct (IH _ _ _ _ NK F' ND' LA' R) as (L & A & T & K).
      split; [exact L|]. split; [|split; [cbn; f_equal; exact T|exact K]].
      intros i y HY. rewrite (A i y HY). rewrite set_nth_nth by lia. rewrite named_cons. cbn [find_named].
      destruct (Nat.eqb_spec i i0) as [->|NE].
      * assert (y = x) by congruence. subst y. rewrite (find_named_none x (named ks) NI). rewrite Nat.eqb_refl. reflexivity.
      * destruct (Nat.eqb_spec y x) as [->|]; [|reflexivity]. exfalso. apply NE. exact (nodup_nth _ _ _ _ NK HY IX).
    + destruct (named_args keys kw ks args) as [[tr' a'] k'] eqn:R. injection H as <- <- <-.
      destruct (IH _ _ _ _ NK F' ND' LA R) as (L & A & T & K).
      split; [exact L|]. split; [|split; [exact T|]].
      * intros i y HY. rewrite (A i y HY). rewrite named_cons. cbn [find_named].
        destruct (Nat.eqb_spec y x) as [->|]; [|reflexivity]. exfalso. apply (index_of_none _ _ IX).
        exact (nth_error_In _ _ HY).
      * cbn [negb]. destruct kw; [cbn; f_equal; exact K|exact K].
Qed.

Lemma wrap_some : forall cs, wrap_kw_args (map (fun c => (Some (kw_name c), kw_expr c)) cs) =
  Some (map kw_expr cs, map (fun c => (kw_name c, SArg (kw_expr c))) cs).
Proof. induction cs as [|c cs IH]; [reflexivity|]. cbn [map wrap_kw_args]. rewrite IH. reflexivity. Qed.

Lemma named_filter : forall f ks, Forall simple ks ->
  filter (fun kv : nat * source => f (fst kv)) (named ks) =
  map (fun c => (kw_name c, SArg (kw_expr c))) (filter (fun c => f (kw_name c)) ks).
Proof.
  intros f ks F. induction F as [|k ks H F IH]; [reflexivity|]. destruct k as [x e|]; [|contradiction].
  rewrite named_cons. cbn [filter fst kw_name]. destruct (f x); [cbn; f_equal; exact IH|exact IH].
Qed.

(** ** Defaults *)
Lemma default_args_spec : forall args keys, length args = length keys ->
  (forall k a x d, nth_error args k = Some a -> nth_error keys k = Some (x, d) ->
     exists v, orelse a (option_map SDefault d) = Some v /\ (forall n, v <> SDefault (DEffect n))) ->
  exists out, default_args args keys = Some out /\ length out = length keys /\
    forall k a x d v, nth_error args k = Some a -> nth_error keys k = Some (x, d) ->
      orelse a (option_map SDefault d) = Some v -> nth_error out k = Some v.
Proof.
  induction args as [|a args IH]; intros [|[x d] keys] L H; try discriminate.
  - exists []. repeat split. intros [|k]; discriminate.
  - destruct (IH keys) as (out & D & LO & O); [cbn in L; lia| |].
    { intros k a' x' d' A K. exact (H (S k) a' x' d' A K). }
    destruct (H 0 a x d eq_refl eq_refl) as (v & V & NE).
    exists (v :: out). split; [|split; [cbn; lia|]].
    + cbn [default_args]. destruct a as [a|].
      * cbn in V. injection V as ->. rewrite D. reflexivity.
      * cbn in V. destruct d as [d|]; [|discriminate]. cbn in V. injection V as <-.
        destruct d; [rewrite D; reflexivity|rewrite D; reflexivity|]. exfalso. exact (NE n eq_refl).
    + intros [|k] a' x' d' v' A K V'; cbn in A, K; cbn [nth_error].
      * injection A as <-. injection K as <- <-. rewrite <- V'. symmetry. exact V.
      * exact (O k a' x' d' v' A K V').
Qed.

Lemma set_defaults_fst : forall args n ds, map fst (set_defaults n args ds) = map fst args.
Proof.
  induction args as [|[x d] args IH]; intros n ds; [reflexivity|]. cbn [set_defaults].
  destruct n; [destruct ds|]; cbn; rewrite ?IH; reflexivity.
Qed.
Lemma set_defaults_nth : forall args n ds k x d, nth_error (set_defaults n args ds) k = Some (x, d) ->
  length ds <= length args - n ->
  exists d0, nth_error args k = Some (x, d0) /\
    d = if k <? n then d0 else match nth_error ds (k - n) with Some e => Some e | None => d0 end.
Proof.
  induction args as [|[y d1] args IH]; intros n ds k x d H L; [destruct k; discriminate|].
  cbn [set_defaults] in H. destruct n as [|n].
  - destruct ds as [|e ds].
    + exists d. split; [exact H|]. cbn [Nat.ltb Nat.leb]. destruct (k - 0); reflexivity.
    + destruct k as [|k]; cbn in H.
      * injection H as <- <-. exists d1. split; reflexivity.
      * destruct (IH 0 ds k x d H) as (d0 & A & B); [cbn in L; lia|].
        exists d0. split; [exact A|]. rewrite B. cbn [Nat.ltb Nat.leb]. rewrite !Nat.sub_0_r. reflexivity.
  - destruct k as [|k]; cbn in H.
    + injection H as <- <-. exists d1. split; reflexivity.
    + destruct (IH n ds k x d H) as (d0 & A & B); [cbn in L; lia|]. exists d0. split; [exact A|]. exact B.
Qed.

(** ** Positional arguments *)

Lemma unpack_known : forall ps, Forall known ps -> unpack ps = Some (map pos_expr ps, flat_map components ps).
Proof.
  intros ps F. induction F as [|p ps H F IH]; [reflexivity|]. cbn [unpack]. rewrite IH.
  destruct p as [e|e [n|]]; [reflexivity|reflexivity|contradiction].
Qed.

Lemma prefix_nat : forall {A} n (l : list A), prefix (Z.of_nat n) l = firstn n l.
Proof.
  intros A n l. unfold prefix. destruct (Z.ltb_spec (Z.of_nat n) 0); [lia|]. rewrite Nat2Z.id. reflexivity.
Qed.
Lemma suffix_nat : forall {A} n (l : list A), suffix (Z.of_nat n) l = skipn n l.
Proof.
  intros A n l. unfold suffix. destruct (Z.ltb_spec (Z.of_nat n) 0); [lia|]. rewrite Nat2Z.id. reflexivity.
Qed.

(** ** With the receiver among the positional arguments *)
Definition core (t : target) (n : nat) (tr : list nat) (P : list source) (ks : list kwarg) : option bound :=
  let args1 := map Some (firstn n P) ++ repeat None (length (t_args t) - length (firstn n P)) in
  let '(tr2, args2, kws) := named_args (map fst (t_args t)) (t_kw t) ks args1 in
  match default_args args2 (t_args t) with
  | None => None
  | Some args3 =>
      if t_kw t then
        match wrap_kw_args kws with
        | None => None
        | Some (tr3, d) => Some {| r_trace := tr ++ tr2 ++ tr3; r_args := args3;
                                   r_var := if t_var t then Some (skipn n P) else None; r_kw := Some d |}
        end
      else Some {| r_trace := tr ++ tr2; r_args := args3;
                   r_var := if t_var t then Some (skipn n P) else None; r_kw := None |}
  end.

Lemma named_args_cons : forall x0 keys kw a0 ks args, (forall k, In k ks -> simple k /\ kw_name k <> x0) ->
  named_args (x0 :: keys) kw ks (a0 :: args) =
  let '(tr, a, k) := named_args keys kw ks args in (tr, a0 :: a, k).
Proof.
  intros x0 keys kw a0 ks. induction ks as [|c ks IH]; intros args H; [reflexivity|].
  destruct (H c (or_introl eq_refl)) as (S & NE). destruct c as [x e|]; [|contradiction]. cbn in NE.
  cbn [named_args index_of]. destruct (Nat.eqb_spec x x0); [congruence|].
  destruct (index_of x keys) as [i|]; cbn [option_map].
  - cbn [set_nth]. rewrite IH by (intros k I; apply H; right; exact I).
    destruct (named_args keys kw ks (set_nth i (Some (SArg e)) args)) as [[tr a] k]. reflexivity.
  - rewrite IH by (intros k I; apply H; right; exact I).
    destruct (named_args keys kw ks args) as [[tr a] k]. reflexivity.
Qed.

Lemma call_core : forall s t recv ps ks, analyze s = Some t -> Forall known ps -> Forall simple ks ->
  (recv = true -> exists x0, nth_error (s_pos s) 0 = Some x0 /\ find_named x0 (named ks) = None) ->
  translate_call s recv ps ks = core t (length (s_pos s)) (map pos_expr ps) (positional recv ps) ks.
Proof.
  intros s t recv ps ks A KN SI RC. unfold translate_call. rewrite A. unfold translate_args. rewrite unpack_known by exact KN.
  assert (TF : t_interface t = false /\ t_nargs t = Z.of_nat (length (s_pos s)) /\
               map fst (t_args t) = s_pos s ++ map fst (s_kwonly s)).
  { unfold analyze in A. destruct (_ <=? _); [|discriminate]. injection A as <-. cbn.
    rewrite set_defaults_fst, map_map. cbn. rewrite map_id. auto. }
  destruct TF as (TI & TN & TA). rewrite TI. destruct recv.
  - destruct (RC eq_refl) as (x0 & N0 & FN). destruct (s_pos s) as [|y pos] eqn:SP; [discriminate|].
    cbn in N0. injection N0 as ->. destruct (t_args t) as [|[z dz] targs] eqn:TG; [discriminate|].
    cbn in TA. injection TA as -> TA. cbn [positional flat_map app length tl].
    assert (EN : (t_nargs t - 1 = Z.of_nat (length pos))%Z) by (rewrite TN; cbn [length]; lia).
    unfold positional. cbn [app]. set (us := flat_map components ps).
    rewrite EN, prefix_nat, suffix_nat. unfold core. rewrite TG. cbn [length firstn skipn map fst app Nat.sub].
    rewrite named_args_cons.
    2:{ intros k I. rewrite Forall_forall in SI. split; [exact (SI k I)|]. intros E.
        apply find_named_in in FN. apply FN. rewrite named_names by (apply Forall_forall; exact SI).
        rewrite <- E. apply in_map. exact I. }
    destruct (named_args (map fst targs) (t_kw t) ks
      (map Some (firstn (length pos) us) ++ repeat None (length targs - length (firstn (length pos) us)))) as [[tr2 a2] k2].
    cbn [default_args]. destruct (default_args a2 targs) as [a3|]; [|reflexivity]. cbn [option_map].
    destruct (t_kw t); [|reflexivity]. destruct (wrap_kw_args k2) as [[tr3 d]|]; reflexivity.
  - rewrite TN, prefix_nat, suffix_nat. unfold core, positional. cbn [app].
    destruct (named_args _ _ _ _) as [[tr2 a2] k2]. destruct (default_args a2 (t_args t)); [|reflexivity].
    destruct (t_kw t); [|reflexivity]. destruct (wrap_kw_args k2) as [[tr3 d]|]; reflexivity.
Qed.

Lemma combine_fst : forall (l : list (nat * source)) out, length out = length l ->
  (forall k x v, nth_error l k = Some (x, v) -> nth_error out k = Some v) -> combine (map fst l) out = l.
Proof.
  induction l as [|[x v] l IH]; intros [|o out] L H; try discriminate; [reflexivity|].
  cbn. specialize (IH out). rewrite IH; [|cbn in L; lia|intros k y w E; exact (H (S k) y w E)].
  specialize (H 0 x v eq_refl). cbn in H. injection H as ->. reflexivity.
Qed.

Lemma nth_app : forall {A} (l l' : list A) k,
  nth_error (l ++ l') k = if k <? length l then nth_error l k else nth_error l' (k - length l).
Proof.
  intros A l l' k. destruct (Nat.ltb_spec k (length l)).
  - apply nth_error_app1. assumption.
  - apply nth_error_app2. assumption.
Qed.

Lemma nth_firstn : forall {A} n (l : list A) k, nth_error (firstn n l) k = if k <? n then nth_error l k else None.
Proof.
  intros A n. induction n as [|n IH]; intros l k.
  - destruct k; reflexivity.
  - destruct l as [|x l]; [cbn [firstn]; destruct k; cbn [nth_error]; [reflexivity|]; destruct (S k <? S n); reflexivity|].
    destruct k as [|k]; [reflexivity|]. cbn [firstn nth_error]. rewrite IH. reflexivity.
Qed.

Section Main.
  Context (s : sig) (P : list source) (ks : list kwarg) (y : py_bound).
  Let K := named ks.
  Context (WF : wf_sig s) (B : python_binds s P K y) (NP : s_posonly s = []) (SI : Forall simple ks).
  Context (PURE : forall x n, ~ In (x, SDefault (DEffect n)) (y_pos y ++ y_kwonly y)).
  Context (DF : s_kwonly s = [] \/ forall x d, ~ In (x, SDefault d) (y_pos y ++ y_kwonly y)).

  Lemma analyze_some : exists t, analyze s = Some t.
  Proof.
    unfold analyze. destruct WF as (_ & L). unfold pos_params in L. rewrite NP in L. cbn in L.
    assert (E : length (s_defaults s) <=? length (map (fun x : nat => (x, @None dflt)) (s_pos s ++ map fst (s_kwonly s))) = true).
    { apply Nat.leb_le. rewrite map_length, app_length. lia. }
    rewrite E. eexists. reflexivity.
  Qed.

  Lemma core_agrees : forall t tr, analyze s = Some t ->
    exists b, core t (length (s_pos s)) tr P ks = Some b /\ agrees s b y /\
      r_trace b = tr ++ map kw_expr (filter (fun c => is_key (viper_params s) (kw_name c)) ks) ++
                  (if s_kw s then map kw_expr (filter (fun c => negb (is_key (viper_params s) (kw_name c))) ks) else []).
  Proof.
    intros t tr A. destruct B as (B1 & B2 & B3 & B4 & B5 & B6 & B7 & B8).
    destruct WF as (ND & LD). unfold pos_params in *. rewrite NP in *. cbn [app] in *.
    assert (KT : map fst (t_args t) = viper_params s /\ t_kw t = s_kw s /\ t_var t = s_var s).
    { unfold analyze in A. destruct (_ <=? _); [|discriminate]. injection A as <-. cbn [t_args t_kw t_var].
      rewrite set_defaults_fst, map_map. cbn. rewrite map_id. auto. }
    destruct KT as (KA & KK & KV).
    assert (LT : length (t_args t) = length (s_pos s) + length (s_kwonly s)).
    { rewrite <- (map_length fst (t_args t)), KA. unfold viper_params. rewrite app_length, map_length. reflexivity. }
    assert (LP : length (y_pos y) = length (s_pos s)) by (rewrite <- (map_length fst (y_pos y)), B1; reflexivity).
    assert (LK : length (y_kwonly y) = length (s_kwonly s)) by (rewrite <- (map_length fst (y_kwonly y)), B3, map_length; reflexivity).
    unfold core. set (n := length (s_pos s)).
    set (args1 := map Some (firstn n P) ++ repeat None (length (t_args t) - length (firstn n P))).
    assert (FN : length (firstn n P) <= n) by (rewrite firstn_length; lia).
    assert (L1 : length args1 = length (map fst (t_args t))).
    { unfold args1. rewrite app_length, !map_length, repeat_length. lia. }
    destruct (named_args (map fst (t_args t)) (t_kw t) ks args1) as [[tr2 a2] k2] eqn:NA.
    assert (NK : NoDup (map fst (t_args t))) by (rewrite KA; exact ND).
    destruct (named_args_spec _ _ _ _ _ _ _ NK SI B5 L1 NA) as (L2 & A2 & T2 & K2).
    (* the value of parameter k *)
    assert (VAL : forall k a x d, nth_error a2 k = Some a -> nth_error (t_args t) k = Some (x, d) ->
      exists v, orelse a (option_map SDefault d) = Some v /\ nth_error (y_pos y ++ y_kwonly y) k = Some (x, v)).
    { intros k a x d HA HK.
      assert (KX : nth_error (map fst (t_args t)) k = Some x) by (rewrite nth_map, HK; reflexivity).
      rewrite (A2 k x KX) in HA.
      assert (HA1 : forall v, find_named x K = None -> nth_error args1 k = Some v ->
                 v = if k <? n then nth_error P k else None).
      { intros v _ E. unfold args1 in E. rewrite nth_app, map_length, nth_map, nth_firstn, nth_repeat in E.
        destruct (Nat.ltb_spec k (length (firstn n P))) as [C|C].
        - destruct (Nat.ltb_spec k n); [|lia]. destruct (nth_error P k); [|discriminate]. injection E as <-. reflexivity.
        - destruct (_ <? _); [|discriminate]. injection E as <-. destruct (Nat.ltb_spec k n); [|reflexivity].
          symmetry. apply nth_error_None. rewrite firstn_length in C. lia. }
      assert (DD : exists d0, d = d0 /\ (s_kwonly s = [] -> d = pos_default s k)).
      { exists d. split; [reflexivity|]. intros E. unfold analyze in A. rewrite E in A. cbn [map app] in A.
        rewrite app_nil_r in A. rewrite map_length in A.
        destruct (Nat.leb_spec (length (s_defaults s)) (length (s_pos s))); [|discriminate].
        injection A as <-. cbn [t_args] in HK. apply set_defaults_nth in HK.
        2:{ rewrite map_length. lia. }
        destruct HK as (d0 & D0 & ->). rewrite nth_map in D0. destruct (nth_error (s_pos s) k) as [x'|]; [|discriminate].
        cbn in D0. injection D0 as -> <-. unfold pos_default, pos_params. rewrite NP. cbn [app].
        clear HA1. destruct (k <? length (s_pos s) - length (s_defaults s)); [reflexivity|].
        destruct (nth_error (s_defaults s) _); reflexivity. }
      destruct DD as (_ & _ & DD).
      rewrite nth_app, LP. fold n. destruct (Nat.ltb_spec k n) as [C|C].
      - (* positional *)
        destruct (nth_error (y_pos y) k) as [[x' v]|] eqn:Y.
        2:{ apply nth_error_None in Y. lia. }
        assert (XX : x' = x).
        { assert (E1 : nth_error (map fst (y_pos y)) k = Some x') by (rewrite nth_map, Y; reflexivity).
          rewrite B1 in E1. rewrite KA in KX. unfold viper_params in KX. rewrite nth_app in KX. fold n in KX.
          destruct (Nat.ltb_spec k n); [congruence|lia]. }
        subst x'. exists v. split; [|reflexivity]. pose proof (B2 k x v Y) as BV. unfold bind_pos in BV. rewrite NP in BV.
        cbn [length Nat.ltb Nat.leb] in BV.
        destruct (find_named x K) as [w|] eqn:FX.
        + fold K in HA. rewrite FX in HA. injection HA as <-. cbn.
          destruct (nth_error P k) eqn:PK; [|exact BV]. exfalso.
          assert (find_named x K = None); [|congruence]. apply (B6 k x).
          * rewrite KA in KX. unfold viper_params in KX. rewrite nth_app in KX. fold n in KX.
            destruct (Nat.ltb_spec k n); [exact KX|lia].
          * cbn. apply nth_error_Some. congruence.
        + fold K in HA. rewrite FX in HA. rewrite (HA1 a eq_refl HA).
          destruct (nth_error P k); [exact BV|]. cbn in BV |- *.
          destruct DF as [E|E].
          * rewrite DD by exact E. exact BV.
          * exfalso. destruct (pos_default s k); [|discriminate]. injection BV as <-.
            apply (E x d0). apply in_or_app. left. exact (nth_error_In _ _ Y).
      - (* keyword only *)
        destruct (nth_error (y_kwonly y) (k - n)) as [[x' v]|] eqn:Y.
        2:{ apply nth_error_None in Y. assert (k < length (t_args t)) by (apply nth_error_Some; congruence). lia. }
        assert (XX : x' = x).
        { assert (E1 : nth_error (map fst (y_kwonly y)) (k - n) = Some x') by (rewrite nth_map, Y; reflexivity).
          rewrite B3 in E1. rewrite KA in KX. unfold viper_params in KX. rewrite nth_app in KX. fold n in KX.
          destruct (Nat.ltb_spec k n); [lia|congruence]. }
        subst x'. exists v. split; [|reflexivity].
        destruct (nth_error (s_kwonly s) (k - n)) as [[x'' d']|] eqn:SK.
        2:{ apply nth_error_None in SK. assert (k < length (t_args t)) by (apply nth_error_Some; congruence). lia. }
        assert (x'' = x).
        { assert (E1 : nth_error (map fst (s_kwonly s)) (k - n) = Some x'') by (rewrite nth_map, SK; reflexivity).
          rewrite KA in KX. unfold viper_params in KX. rewrite nth_app in KX. fold n in KX.
          destruct (Nat.ltb_spec k n); [lia|congruence]. }
        subst x''. pose proof (B4 _ _ _ _ Y SK) as BV. unfold bind_kwonly in BV.
        destruct (find_named x K) as [w|] eqn:FX.
        + fold K in HA. rewrite FX in HA. injection HA as <-. exact BV.
        + exfalso. cbn in BV. destruct d' as [d'|]; [|discriminate]. injection BV as <-.
          destruct DF as [E|E]; [rewrite E in SK; destruct (k - n); discriminate|].
          apply (E x d'). apply in_or_app. right. exact (nth_error_In _ _ Y). }
    destruct (default_args_spec a2 (t_args t)) as (out & DA & LO & O).
    { rewrite L2, map_length. reflexivity. }
    { intros k a x d HA HK. destruct (VAL k a x d HA HK) as (v & V & Y). exists v. split; [exact V|].
      intros m ->. apply (PURE x m). exact (nth_error_In _ _ Y). }
    rewrite DA.
    assert (CM : combine (viper_params s) out = y_pos y ++ y_kwonly y).
    { rewrite <- KA. assert (FE : map fst (t_args t) = map fst (y_pos y ++ y_kwonly y)).
      { rewrite map_app, B1, B3, KA. reflexivity. }
      rewrite FE. apply combine_fst.
      - rewrite LO, app_length. lia.
      - intros k x v Y. destruct (nth_error (t_args t) k) as [[x' d]|] eqn:HK.
        2:{ apply nth_error_None in HK. assert (k < length (y_pos y ++ y_kwonly y)) by (apply nth_error_Some; congruence).
            rewrite app_length in *. lia. }
        destruct (nth_error a2 k) as [a|] eqn:HA.
        2:{ apply nth_error_None in HA. assert (k < length (t_args t)) by (apply nth_error_Some; congruence).
            rewrite L2, map_length in HA. lia. }
        destruct (VAL k a x' d HA HK) as (v' & V & Y'). assert (v' = v) by congruence. subst v'.
        exact (O k a x' d v HA HK V). }
    assert (LV : length out = length (viper_params s)) by (rewrite LO, <- KA, map_length; reflexivity).
    assert (VA : (if t_var t then Some (skipn n P) else None) = y_var y).
    { rewrite KV. destruct (s_var s); [rewrite B7; reflexivity|]. destruct B7 as (-> & _). reflexivity. }
    rewrite KA in T2, K2. rewrite KK in *. destruct (s_kw s).
    - rewrite K2, wrap_some. eexists. split; [reflexivity|]. split.
      + split; [exact CM|]. split; [exact LV|]. split; [exact VA|]. cbn [r_kw]. rewrite B8. f_equal.
        symmetry. exact (named_filter (fun x => negb (is_key (viper_params s) x)) ks SI).
      + cbn [r_trace]. rewrite T2. reflexivity.
    - eexists. split; [reflexivity|]. split.
      + split; [exact CM|]. split; [exact LV|]. split; [exact VA|]. cbn [r_kw]. destruct B8 as (-> & _). reflexivity.
      + cbn [r_trace]. rewrite T2, app_nil_r. reflexivity.
  Qed.
End Main.

Lemma c27_binding_partial : forall s recv ps ks y,
  wf_sig s -> Forall known ps -> python_binds s (positional recv ps) (named ks) y ->
  (recv = true -> s_pos s <> []) ->
  s_posonly s = [] -> Forall simple ks ->
  (forall x n, ~ In (x, SDefault (DEffect n)) (y_pos y ++ y_kwonly y)) ->
  (s_kwonly s = [] \/ forall x d, ~ In (x, SDefault d) (y_pos y ++ y_kwonly y)) ->
  exists b, translate_call s recv ps ks = Some b /\ agrees s b y.
Proof.
  intros s recv ps ks y WF KN B RC NP SI PU DF.
  destruct (analyze_some s WF NP) as (t & A).
  destruct (core_agrees s (positional recv ps) ks y WF B NP SI PU DF t (map pos_expr ps) A) as (b & C & AG & _).
  exists b. split; [|exact AG]. rewrite <- C. apply call_core; auto.
  intros ->. destruct (s_pos s) as [|x0 l] eqn:SP; [contradiction (RC eq_refl eq_refl)|].
  exists x0. split; [reflexivity|]. destruct B as (_ & _ & _ & _ & _ & B6 & _). apply (B6 0 x0).
  - rewrite SP. reflexivity.
  - rewrite NP. cbn. lia.
Qed.

Lemma c27_order_partial : forall s recv ps ks y b,
  wf_sig s -> Forall known ps -> python_binds s (positional recv ps) (named ks) y ->
  (recv = true -> s_pos s <> []) ->
  s_posonly s = [] -> Forall simple ks ->
  (forall x n, ~ In (x, SDefault (DEffect n)) (y_pos y ++ y_kwonly y)) ->
  (s_kwonly s = [] \/ forall x d, ~ In (x, SDefault d) (y_pos y ++ y_kwonly y)) ->
  (s_kw s = false \/ exists k1 k2, ks = k1 ++ k2 /\ (forall c, In c k1 -> In (kw_name c) (keyword_params s)) /\
                                   (forall c, In c k2 -> ~ In (kw_name c) (keyword_params s))) ->
  translate_call s recv ps ks = Some b -> r_trace b = python_order ps ks.
Proof.
  intros s recv ps ks y b WF KN B RC NP SI PU DF OR TC.
  destruct (analyze_some s WF NP) as (t & A).
  destruct (core_agrees s (positional recv ps) ks y WF B NP SI PU DF t (map pos_expr ps) A) as (b' & C & _ & TR).
  assert (E : translate_call s recv ps ks = core t (length (s_pos s)) (map pos_expr ps) (positional recv ps) ks).
  { apply call_core; auto.
    intros ->. destruct (s_pos s) as [|x0 l] eqn:SP; [contradiction (RC eq_refl eq_refl)|].
    exists x0. split; [reflexivity|]. destruct B as (_ & _ & _ & _ & _ & B6 & _). apply (B6 0 x0).
    - rewrite SP. reflexivity.
    - rewrite NP. cbn. lia. }
  assert (b = b') by congruence. subst b'. rewrite TR. unfold python_order. f_equal.
  assert (FA : forall (f : kwarg -> bool) l, (forall c, In c l -> f c = true) -> filter f l = l).
  { intros f l. induction l as [|c l IH]; intros H; [reflexivity|]. cbn. rewrite H by (left; reflexivity).
    f_equal. apply IH. intros d I. apply H. right. exact I. }
  assert (FZ : forall (f : kwarg -> bool) l, (forall c, In c l -> f c = false) -> filter f l = []).
  { intros f l. induction l as [|c l IH]; intros H; [reflexivity|]. cbn. rewrite H by (left; reflexivity).
    apply IH. intros d I. apply H. right. exact I. }
  destruct OR as [NK|(k1 & k2 & -> & H1 & H2)].
  - rewrite NK, app_nil_r. rewrite FA; [reflexivity|]. intros c I. apply is_key_in.
    destruct B as (_ & _ & _ & _ & _ & _ & _ & B8). rewrite NK in B8. destruct B8 as (_ & B8).
    rewrite Forall_forall in SI. pose proof (SI c I) as S. destruct c as [x e|]; [|contradiction].
    apply (B8 x (SArg e)). unfold named. apply in_flat_map. exists (KNamed x e). split; [exact I|left; reflexivity].
  - destruct (s_kw s) eqn:SK.
    + rewrite !filter_app. rewrite (FA _ k1), (FZ _ k2), (FZ _ k1), (FA _ k2).
      * rewrite app_nil_r. cbn. rewrite <- map_app. reflexivity.
      * intros c I. apply negb_true_iff. destruct (is_key _ _) eqn:IK; [|reflexivity]. apply is_key_in in IK. exfalso. exact (H2 c I IK).
      * intros c I. apply negb_false_iff. apply is_key_in. exact (H1 c I).
      * intros c I. destruct (is_key _ _) eqn:IK; [|reflexivity]. apply is_key_in in IK. exfalso. exact (H2 c I IK).
      * intros c I. apply is_key_in. exact (H1 c I).
    + rewrite app_nil_r. rewrite FA; [reflexivity|]. intros c I. apply is_key_in.
      destruct B as (_ & _ & _ & _ & _ & _ & _ & B8). rewrite SK in B8. destruct B8 as (_ & B8).
      rewrite Forall_forall in SI. pose proof (SI c I) as S. destruct c as [x e|]; [|contradiction].
      apply (B8 x (SArg e)). unfold named. apply in_flat_map. exists (KNamed x e). split; [exact I|left; reflexivity].
Qed.

Lemma filter_split : forall (f : kwarg -> bool) l, Permutation (filter f l ++ filter (fun c => negb (f c)) l) l.
Proof.
  intros f l. induction l as [|c l IH]; [constructor|]. cbn [filter]. destruct (f c); cbn [negb].
  - cbn. constructor. exact IH.
  - apply Permutation_sym. apply Permutation_cons_app. apply Permutation_sym. exact IH.
Qed.

Lemma c27_once_partial : forall s recv ps ks y b,
  wf_sig s -> Forall known ps -> python_binds s (positional recv ps) (named ks) y ->
  (recv = true -> s_pos s <> []) ->
  s_posonly s = [] -> Forall simple ks ->
  (forall x n, ~ In (x, SDefault (DEffect n)) (y_pos y ++ y_kwonly y)) ->
  (s_kwonly s = [] \/ forall x d, ~ In (x, SDefault d) (y_pos y ++ y_kwonly y)) ->
  translate_call s recv ps ks = Some b -> Permutation (r_trace b) (python_order ps ks).
Proof.
  intros s recv ps ks y b WF KN B RC NP SI PU DF TC. destruct (s_kw s) eqn:SK.
  2:{ rewrite (c27_order_partial s recv ps ks y b WF KN B RC NP SI PU DF (or_introl SK) TC). apply Permutation_refl. }
  destruct (analyze_some s WF NP) as (t & A).
  destruct (core_agrees s (positional recv ps) ks y WF B NP SI PU DF t (map pos_expr ps) A) as (b' & C & _ & TR).
  assert (E : translate_call s recv ps ks = core t (length (s_pos s)) (map pos_expr ps) (positional recv ps) ks).
  { apply call_core; auto.
    intros ->. destruct (s_pos s) as [|x0 l] eqn:SP; [contradiction (RC eq_refl eq_refl)|].
    exists x0. split; [reflexivity|]. destruct B as (_ & _ & _ & _ & _ & B6 & _). apply (B6 0 x0).
    - rewrite SP. reflexivity.
    - rewrite NP. cbn. lia. }
  assert (b = b') by congruence. subst b'. rewrite TR, SK. unfold python_order. apply Permutation_app_head.
  rewrite <- map_app. apply Permutation_map. apply filter_split.
Qed.

Lemma c27_builtin : forall t implicit ps ks b, t_interface t = true -> Forall known ps ->
  translate_args t implicit ps ks = Some b ->
  ks = [] /\ r_trace b = map pos_expr ps /\
  exists m, r_args b = flat_map components ps ++ repeat SNull m /\ Z.of_nat (length (r_args b)) = t_nargs t.
Proof.
  intros t implicit ps ks b TI KN H. unfold translate_args in H. rewrite unpack_known in H by exact KN. rewrite TI in H.
  unfold interface_args in H. destruct ks; [|discriminate]. split; [reflexivity|].
  destruct (Z.ltb_spec (t_nargs t - Z.of_nat (length (flat_map components ps))) 0); [discriminate|].
  injection H as <-. cbn [r_trace r_args]. split; [reflexivity|].
  eexists. split; [reflexivity|]. rewrite app_length, repeat_length. lia.
Qed.
