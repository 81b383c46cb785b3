From Coq Require Import List ZArith Bool Lia.
From Coq Require Import Sorting.Sorted.
From Verif Require Import IntModel SeqModel SeqSpec.
From Verif Require IntProofs.
Import ListNotations.
Open Scope Z_scope.

Section Gen.
  Context {A : Type}.
  Implicit Types (l s o r : list A) (x y : A).

  Lemma vget_at : forall l i x, vget l i = Some x <-> at_ l i x.
  Proof.
    intros l i x. unfold vget, at_. destruct (Z.ltb_spec i 0); split.
    - discriminate.
    - lia.
    - intros. split; [lia|assumption].
    - tauto.
  Qed.

  Lemma at_range : forall l i x, at_ l i x -> 0 <= i < len l.
  Proof.
    intros l i x [H E]. split; [assumption|]. unfold len.
    assert (Z.to_nat i < length l)%nat by (apply nth_error_Some; rewrite E; discriminate). lia.
  Qed.

  Lemma at_exists : forall l i, 0 <= i < len l -> exists x, at_ l i x.
  Proof.
    intros l i H. unfold len in H. destruct (nth_error l (Z.to_nat i)) as [x|] eqn:E.
    - exists x. split; [lia|assumption].
    - apply nth_error_None in E. lia.
  Qed.

  Lemma at_fun : forall l i x y, at_ l i x -> at_ l i y -> x = y.
  Proof. intros l i x y [_ E] [_ F]. congruence. Qed.

  Lemma at_in : forall l x, In x l <-> exists i, at_ l i x.
  Proof.
    intros l x. split.
    - intros I. apply In_nth_error in I. destruct I as [n E]. exists (Z.of_nat n).
      split; [lia|]. rewrite Nat2Z.id. assumption.
    - intros [i [_ E]]. apply nth_error_In in E. assumption.
  Qed.

  Lemma list_ext : forall l r, (forall i y, at_ l i y <-> at_ r i y) -> l = r.
  Proof.
    intros l r H.
    assert (E : forall n, nth_error l n = nth_error r n).
    { intros n. destruct (nth_error l n) as [x|] eqn:X.
      - symmetry. specialize (H (Z.of_nat n) x). unfold at_ in H. rewrite Nat2Z.id in H.
        apply H. split; [lia|assumption].
      - destruct (nth_error r n) as [y|] eqn:Y; [|reflexivity].
        specialize (H (Z.of_nat n) y). unfold at_ in H. rewrite Nat2Z.id in H.
        assert (nth_error l n = Some y) by (apply H; split; [lia|assumption]). congruence. }
    clear H. revert r E. induction l as [|x l IH]; intros r E.
    - specialize (E O). destruct r; [reflexivity|discriminate].
    - destruct r as [|y r]; [specialize (E O); discriminate|].
      pose proof (E O) as E0. cbn in E0. injection E0 as ->. f_equal.
      apply IH. intros n. exact (E (S n)).
  Qed.

  Lemma at_app : forall l r i y, at_ (l ++ r) i y <->
    (i < len l /\ at_ l i y) \/ (len l <= i /\ at_ r (i - len l) y).
  Proof.
    intros l r i y. unfold at_, len. split.
    - intros [H E]. destruct (Z_lt_le_dec i (Z.of_nat (length l))) as [L|L].
      + left. split; [assumption|]. split; [assumption|]. rewrite nth_error_app1 in E by lia. assumption.
      + right. split; [assumption|]. split; [lia|]. rewrite nth_error_app2 in E by lia.
        replace (Z.to_nat (i - Z.of_nat (length l))) with (Z.to_nat i - length l)%nat by lia. assumption.
    - intros [[L [H E]]|[L [H E]]].
      + split; [assumption|]. rewrite nth_error_app1 by lia. assumption.
      + split; [lia|]. rewrite nth_error_app2 by lia.
        replace (Z.to_nat (i - Z.of_nat (length l))) with (Z.to_nat i - length l)%nat in E by lia. assumption.
  Qed.

  Lemma at_cons : forall l x i y, at_ (x :: l) i y <-> (i = 0 /\ y = x) \/ (0 < i /\ at_ l (i - 1) y).
  Proof.
    intros l x i y. change (x :: l) with ([x] ++ l). rewrite at_app. unfold len at 1 2 3. cbn [length].
    split.
    - intros [[L H]|[L H]].
      + left. pose proof (at_range _ _ _ H). assert (i = 0) by lia. subst. destruct H as [_ E].
        cbn in E. split; [reflexivity|congruence].
      + right. split; [lia|]. replace (i - 1) with (i - Z.of_nat 1) by lia. exact H.
    - intros [[-> ->]|[L H]].
      + left. split; [lia|]. split; [lia|reflexivity].
      + right. split; [lia|]. replace (i - Z.of_nat 1) with (i - 1) by lia. exact H.
  Qed.

  Lemma at_nil : forall i y, ~ at_ (@nil A) i y.
  Proof. intros i y H. apply at_range in H. unfold len in H. cbn in H. lia. Qed.

  Lemma len_app : forall l r, len (l ++ r) = len l + len r.
  Proof. intros. unfold len. rewrite app_length. lia. Qed.

  Lemma len_nonneg : forall l, 0 <= len l. Proof. intros. unfold len. lia. Qed.
  Lemma len_cons : forall x l, len (x :: l) = len l + 1.
  Proof. intros. unfold len. cbn [length]. lia. Qed.
  Lemma len_one : forall x, len [x] = 1. Proof. reflexivity. Qed.

  Lemma nth_firstn : forall n l k, (k < n)%nat -> nth_error (firstn n l) k = nth_error l k.
  Proof.
    induction n as [|n IH]; intros l k H; [lia|]. destruct l; [reflexivity|].
    destruct k; [reflexivity|]. cbn. apply IH. lia.
  Qed.
  Lemma nth_skipn : forall n l k, nth_error (skipn n l) k = nth_error l (n + k).
  Proof.
    induction n as [|n IH]; intros l k; [reflexivity|]. destruct l; cbn; [destruct k; reflexivity|]. apply IH.
  Qed.

  Lemma at_take : forall n l i y, at_ (vtake n l) i y <-> i < n /\ at_ l i y.
  Proof.
    intros n l i y. unfold at_, vtake. split.
    - intros [H E]. assert (Z.to_nat i < length (firstn (Z.to_nat n) l))%nat
        by (apply nth_error_Some; rewrite E; discriminate).
      rewrite firstn_length in H0. assert (i < n) by lia.
      rewrite nth_firstn in E by lia. auto.
    - intros [L [H E]]. split; [assumption|]. rewrite nth_firstn by lia. assumption.
  Qed.

  Lemma at_drop : forall n l i y, 0 <= n -> (at_ (vdrop n l) i y <-> 0 <= i /\ at_ l (n + i) y).
  Proof.
    intros n l i y N. unfold at_, vdrop. split.
    - intros [H E]. rewrite nth_skipn in E. split; [assumption|]. split; [lia|].
      replace (Z.to_nat (n + i)) with (Z.to_nat n + Z.to_nat i)%nat by lia. assumption.
    - intros [L [H E]]. split; [assumption|]. rewrite nth_skipn.
      replace (Z.to_nat (n + i)) with (Z.to_nat n + Z.to_nat i)%nat in E by lia. assumption.
  Qed.

  Lemma len_take : forall n l, 0 <= n <= len l -> len (vtake n l) = n.
  Proof. intros n l H. unfold len, vtake in *. rewrite firstn_length. lia. Qed.
  Lemma len_drop : forall n l, 0 <= n <= len l -> len (vdrop n l) = len l - n.
  Proof. intros n l H. unfold len, vdrop in *. rewrite skipn_length. lia. Qed.

  Lemma vlen_len : forall l, vlen l = len l. Proof. reflexivity. Qed.

  (** ** Slices *)

  Lemma slice_positions : forall l k lo hi,
    map snd (filter (fun px : nat * A => (lo <=? Z.of_nat (fst px)) && (Z.of_nat (fst px) <? hi))
               (combine (seq k (length l)) l))
    = skipn (Z.to_nat (lo - Z.of_nat k)) (firstn (Z.to_nat (hi - Z.of_nat k)) l).
  Proof.
    induction l as [|x l IH]; intros k lo hi; cbn [length seq combine filter fst].
    - rewrite firstn_nil, skipn_nil. reflexivity.
    - destruct (Z_lt_le_dec (Z.of_nat k) hi) as [B|B].
      + replace (Z.to_nat (hi - Z.of_nat k)) with (S (Z.to_nat (hi - Z.of_nat (S k)))) by lia.
        cbn [firstn]. destruct (Z.leb_spec lo (Z.of_nat k)) as [C|C]; destruct (Z.ltb_spec (Z.of_nat k) hi); try lia; cbn [andb].
        * replace (Z.to_nat (lo - Z.of_nat k)) with O by lia. cbn [map snd skipn]. f_equal.
          rewrite IH. replace (Z.to_nat (lo - Z.of_nat (S k))) with O by lia. reflexivity.
        * replace (Z.to_nat (lo - Z.of_nat k)) with (S (Z.to_nat (lo - Z.of_nat (S k)))) by lia.
          cbn [skipn]. apply IH.
      + replace (Z.to_nat (hi - Z.of_nat k)) with O by lia.
        destruct (Z.ltb_spec (Z.of_nat k) hi); [lia|]. rewrite andb_false_r, IH.
        replace (Z.to_nat (hi - Z.of_nat (S k))) with O by lia. cbn [firstn].
        rewrite !skipn_nil. reflexivity.
  Qed.

  Lemma firstn_min : forall l n m, (n = m \/ (length l <= n /\ length l <= m))%nat -> firstn n l = firstn m l.
  Proof. intros l n m [->|[H G]]; [reflexivity|]. rewrite !firstn_all2 by lia. reflexivity. Qed.
  Lemma skipn_min : forall l n m, (n = m \/ (length l <= n /\ length l <= m))%nat -> skipn n l = skipn m l.
  Proof. intros l n m [->|[H G]]; [reflexivity|]. rewrite !skipn_all2 by lia. reflexivity. Qed.

  Lemma slice_ok : forall l k,
    vslice l (slice_start k (vlen l)) (slice_stop k (vlen l))
    = py_slice l (internal_start k) (internal_stop k).
  Proof.
    intros l [st sp]. unfold py_slice. rewrite slice_positions.
    unfold vslice, vdrop, vtake, slice_start, slice_stop, py_bound, vlen, len. cbn [internal_start internal_stop].
    replace (firstn (Z.to_nat (match sp with
        | None => Z.of_nat (length l)
        | Some k => Z.max 0 (Z.min (Z.of_nat (length l)) (if k <? 0 then k + Z.of_nat (length l) else k)) end - Z.of_nat 0)) l)
      with (firstn (Z.to_nat (match sp with
        | None => Z.of_nat (length l)
        | Some s => if s <? 0 then Z.of_nat (length l) + s else s end)) l).
    - apply skipn_min. rewrite firstn_length. destruct st as [a|]; [|lia].
      destruct (Z.ltb_spec a 0); lia.
    - apply firstn_min. destruct sp as [b|]; [|lia]. destruct (Z.ltb_spec b 0); lia.
  Qed.

  Lemma slice_len : forall l a b, 0 <= a -> a <= b -> b <= vlen l -> vlen (vslice l a b) = b - a.
  Proof.
    intros l a b X Y Z. unfold vslice, vdrop, vtake, vlen in *. rewrite skipn_length, firstn_length. lia.
  Qed.

  Lemma tuple_slice_ok : forall l k r, tuple_slice_pre l k ->
    slice_start k (vlen l) <= slice_stop k (vlen l) ->
    (tuple_slice_post l k r <-> r = py_slice l (internal_start k) (internal_stop k)).
  Proof.
    intros l k r [[P1 P2] [P3 P4]] O. unfold tuple_slice_post. unfold tuple_len in *.
    rewrite slice_ok. split; [tauto|]. intros ->. split; [|reflexivity].
    rewrite <- slice_ok. apply slice_len; lia.
  Qed.

  Lemma tuple_slice_unsat : forall l k r, tuple_slice_pre l k ->
    slice_stop k (vlen l) < slice_start k (vlen l) -> ~ tuple_slice_post l k r.
  Proof. intros l k r P O [L _]. unfold tuple_len, vlen in *. lia. Qed.

  (** ** Functional operations *)

  Lemma append_ok : forall l x l', py_append l x l' <-> l' = l ++ [x].
  Proof.
    intros l x l'.
    assert (S : py_append l x (l ++ [x])).
    { split; [rewrite len_app; reflexivity|]. split.
      - apply at_app. right. split; [lia|]. replace (len l - len l) with 0 by lia. split; [lia|reflexivity].
      - intros i y I. rewrite at_app. split; [intros [[_ H]|[H _]]; [assumption|lia]|intros H; left; auto]. }
    split; [|intros ->; exact S]. intros (L & X & O). apply list_ext. intros i y.
    destruct S as (L' & X' & O').
    destruct (Z_lt_le_dec i (len l)) as [I|I].
    - rewrite (O i y I), (O' i y I). tauto.
    - destruct (Z.eq_dec i (len l)) as [->|N].
      + split; intros H; [rewrite (at_fun _ _ _ _ H X)|rewrite (at_fun _ _ _ _ H X')]; assumption.
      + split; intros H; apply at_range in H; lia.
  Qed.

  Lemma concat_ok : forall l o l', py_concat l o l' <-> l' = l ++ o.
  Proof.
    intros l o l'.
    assert (S : py_concat l o (l ++ o)).
    { split; [apply len_app|]. split.
      - intros i y I. rewrite at_app. split; [intros [[_ H]|[H _]]; [assumption|lia]|intros H; left; auto].
      - intros i y I. rewrite at_app. replace (len l + i - len l) with i by lia.
        split; [intros [[H _]|[_ H]]; [lia|assumption]|intros H; right; split; [lia|assumption]]. }
    split; [|intros ->; exact S]. intros (L & A1 & A2). destruct S as (_ & B1 & B2).
    apply list_ext. intros i y. destruct (Z_lt_le_dec i (len l)) as [I|I].
    - rewrite (A1 i y I), (B1 i y I). tauto.
    - specialize (A2 (i - len l) y ltac:(lia)). specialize (B2 (i - len l) y ltac:(lia)).
      replace (len l + (i - len l)) with i in * by lia. rewrite A2, B2. tauto.
  Qed.

  Lemma insert_position_ok : forall k n, 0 <= n -> insert_position k n = py_bound (Some k) 0 n.
  Proof.
    intros k n N. unfold insert_position, py_bound. cbv zeta. destruct (Z.ltb_spec k 0);
      match goal with |- context [?e <? 0] => destruct (Z.ltb_spec e 0) end;
      match goal with |- context [n <? ?e] => destruct (Z.ltb_spec n e) | _ => idtac end; lia.
  Qed.

  Lemma insert_ok : forall l k x l', py_insert l k x l' <->
    l' = vtake (insert_position k (vlen l)) l ++ [x] ++ vdrop (insert_position k (vlen l)) l.
  Proof.
    intros l k x l'. rewrite insert_position_ok by apply len_nonneg. change (@vlen A) with (@len A).
    set (p := py_bound (Some k) 0 (len l)).
    assert (P : 0 <= p <= len l).
    { pose proof (len_nonneg l). unfold p, py_bound. cbv zeta. lia. }
    assert (S : py_insert l k x (vtake p l ++ [x] ++ vdrop p l)).
    { unfold py_insert. fold p. cbv zeta.
      split; [rewrite !len_app, len_take, len_drop, len_one by lia; lia|].
      split; [|split].
      - apply at_app. right. rewrite len_take by lia. split; [lia|]. apply at_cons. left. split; [lia|reflexivity].
      - intros i y I. rewrite at_app, len_take by lia. rewrite at_take. split.
        + intros [[_ [_ H]]|[H _]]; [assumption|lia].
        + intros H. left. auto.
      - intros i y I. rewrite at_app, len_take by lia. cbn [app]. rewrite at_cons, at_drop by lia. split.
        + intros [[H _]|[_ [[H _]|[_ [H1 H2]]]]]; [lia|lia|].
          replace (p + (i + 1 - p - 1)) with i in H2 by lia. assumption.
        + intros H. right. split; [lia|]. right. split; [lia|]. split; [lia|].
          replace (p + (i + 1 - p - 1)) with i by lia. assumption. }
    split; [|intros ->; exact S].
    unfold py_insert in *. fold p in S |- *. cbv zeta in *.
    intros (L & X & B & C). destruct S as (L' & X' & B' & C').
    apply list_ext. intros i y. destruct (Z_lt_le_dec i p) as [I|I].
    - rewrite (B i y I), (B' i y I). tauto.
    - destruct (Z.eq_dec i p) as [->|N].
      + split; intros H; [rewrite (at_fun _ _ _ _ H X)|rewrite (at_fun _ _ _ _ H X')]; assumption.
      + replace i with (i - 1 + 1) by lia. rewrite (C (i - 1) y) by lia. rewrite (C' (i - 1) y) by lia. tauto.
  Qed.

  Lemma setitem_ok : forall l k x l', list_setitem_pre l k -> (py_setitem l k x l' <-> l' = vupd l k x).
  Proof.
    intros l k x l' [K1 K2]. unfold list_len in K2. change (@vlen A) with (@len A) in K2.
    assert (S : py_setitem l k x (vupd l k x)).
    { unfold py_setitem, vupd. destruct (Z.ltb_spec k 0); [lia|]. cbv zeta.
      split; [lia|]. split; [rewrite !len_app, len_take, len_drop, len_one by lia; lia|]. split.
      - apply at_app. right. rewrite len_take by lia. split; [lia|]. apply at_cons. left. split; [lia|reflexivity].
      - intros i y N. rewrite at_app, len_take by lia. cbn [app]. rewrite at_take, at_cons, at_drop by lia. split.
        + intros [[_ [_ H1]]|[_ [[H1 _]|[_ [H1 H2]]]]]; [assumption|lia|].
          replace (k + 1 + (i - k - 1)) with i in H2 by lia. assumption.
        + intros H1. destruct (Z_lt_le_dec i k); [left; auto|].
          right. split; [lia|]. right. split; [lia|]. split; [lia|].
          replace (k + 1 + (i - k - 1)) with i by lia. assumption. }
    split; [|intros ->; exact S]. unfold py_setitem in *. destruct (Z.ltb_spec k 0); [lia|].
    cbv zeta in *. intros (_ & L & X & B). destruct S as (_ & L' & X' & B').
    apply list_ext. intros i y. destruct (Z.eq_dec i k) as [->|N].
    - split; intros G; [rewrite (at_fun _ _ _ _ G X)|rewrite (at_fun _ _ _ _ G X')]; assumption.
    - rewrite (B i y N), (B' i y N). tauto.
  Qed.

  Lemma getitem_ok : forall l k x, list_getitem_post l k x -> list_getitem_pre l k -> py_getitem l k x.
  Proof.
    intros l k x P [Q1 Q2]. unfold list_getitem_post, list_len in *. change (@vlen A) with (@len A) in *.
    unfold py_getitem. destruct (Z.leb_spec 0 k); destruct (Z.ltb_spec k 0); try lia; split; try lia.
    - apply vget_at. auto.
    - apply vget_at. rewrite Z.add_comm. auto.
  Qed.

  Lemma getitem_iff : forall l k x, list_getitem_pre l k -> (list_getitem_post l k x <-> py_getitem l k x).
  Proof.
    intros l k x Q. split; [intros; apply getitem_ok; assumption|].
    intros [R H]. unfold list_getitem_post, list_len. change (@vlen A) with (@len A).
    destruct (Z.leb_spec 0 k); destruct (Z.ltb_spec k 0); try lia.
    - symmetry. apply vget_at. assumption.
    - symmetry. apply vget_at. rewrite Z.add_comm. assumption.
  Qed.

  Lemma getitem_pre_iff : forall l k, list_getitem_pre l k <-> exists x, py_getitem l k x.
  Proof.
    intros l k. split.
    - intros P. pose proof P as [P1 P2]. unfold list_len in *. change (@vlen A) with (@len A) in *.
      destruct (at_exists l (if k <? 0 then k + len l else k)) as [x X].
      { destruct (Z.ltb_spec k 0); lia. }
      exists x. split; [|assumption]. lia.
    - intros [x [R _]]. unfold list_getitem_pre, list_len. change (@vlen A) with (@len A). lia.
  Qed.

  Lemma getitem2_iff : forall l k x, tuple_getitem_pre l k -> (tuple_getitem_post l k x <-> py_getitem l k x).
  Proof.
    intros l k x [Q1 Q2]. unfold tuple_getitem_post, tuple_len in *. change (@vlen A) with (@len A) in *.
    unfold py_getitem. destruct (Z.ltb_spec k 0); split.
    - intros [_ H1]. split; [lia|]. apply vget_at. rewrite Z.add_comm. symmetry. auto.
    - intros [_ H1]. split; [lia|]. intros _. symmetry. apply vget_at. rewrite Z.add_comm. assumption.
    - intros [H1 _]. split; [lia|]. apply vget_at. symmetry. apply H1. lia.
    - intros [_ H1]. split; [|lia]. intros _. symmetry. apply vget_at. assumption.
  Qed.

  Lemma mul_seq_len : forall l n, len (py_repeat l n) = (if 0 <? n then n else 0) * len l.
  Proof.
    intros l n. unfold py_repeat.
    assert (G : forall k, len (concat (repeat l k)) = Z.of_nat k * len l).
    { induction k as [|k IH]; [reflexivity|]. cbn [repeat concat]. rewrite len_app, IH. lia. }
    rewrite G. destruct (Z.ltb_spec 0 n); [lia|]. replace (Z.to_nat n) with O by lia. lia.
  Qed.

  Lemma at_repeat : forall k l i y, at_ (concat (repeat l k)) i y <->
    0 <= i < Z.of_nat k * len l /\ at_ l (i mod len l) y.
  Proof.
    induction k as [|k IH]; intros l i y.
    - cbn [repeat concat]. split; [intros H; exfalso; exact (at_nil _ _ H)|lia].
    - cbn [repeat concat]. rewrite at_app, IH. pose proof (len_nonneg l) as N. split.
      + intros [[L H]|[L [R H]]].
        * pose proof (at_range _ _ _ H). split; [nia|]. rewrite Z.mod_small by lia. assumption.
        * split; [nia|]. replace (i - len l) with (i + (-1) * len l) in H by lia.
          rewrite Z.mod_add in H by nia. assumption.
      + intros [R H]. destruct (Z_lt_le_dec i (len l)) as [L|L].
        * left. split; [assumption|]. rewrite Z.mod_small in H by lia. assumption.
        * right. split; [assumption|]. split; [nia|].
          replace (i - len l) with (i + (-1) * len l) by lia. rewrite Z.mod_add by nia. assumption.
  Qed.

  Lemma mul_ok : forall l n r,
    (vlen r = (if 0 <? n then n else 0) * vlen l /\
     (n > 0 -> forall i, i >= 0 -> i < vlen r -> vget r i = vget l (viper_mod i (vlen l))))
    <-> r = py_repeat l n.
  Proof.
    intros l n r. change (@vlen A) with (@len A). split.
    - intros [L E]. apply list_ext. intros i y. unfold py_repeat. rewrite at_repeat.
      destruct (Z.ltb_spec 0 n) as [N|N].
      + rewrite Z2Nat.id by lia. specialize (E ltac:(lia)). split; intros H.
        * pose proof (at_range _ _ _ H) as R. split; [lia|].
          apply vget_at in H. rewrite E in H by lia. apply vget_at in H. unfold viper_mod in H.
          rewrite Z.abs_eq in H by apply len_nonneg. assumption.
        * destruct H as [R H]. apply vget_at. rewrite E by lia. apply vget_at. unfold viper_mod.
          rewrite Z.abs_eq by apply len_nonneg. assumption.
      + replace (Z.to_nat n) with O by lia. split; intros H.
        * apply at_range in H. lia.
        * lia.
    - intros ->. split; [apply mul_seq_len|]. intros N i I1 I2.
      rewrite mul_seq_len in I2. destruct (Z.ltb_spec 0 n); [|lia].
      pose proof (len_nonneg l). unfold viper_mod. rewrite Z.abs_eq by assumption.
      destruct (at_exists l (i mod len l)) as [y Y]; [apply Z.mod_pos_bound; nia|].
      transitivity (Some y).
      + apply vget_at. apply at_repeat. rewrite Z2Nat.id by lia. split; [lia|assumption].
      + symmetry. apply vget_at. assumption.
  Qed.

  Lemma reverse_ok : forall l r,
    (vlen r = vlen l /\ (forall i, i >= 0 /\ i < vlen r -> vget r i = vget l (vlen l - 1 - i))) <-> r = rev l.
  Proof.
    intros l r. change (@vlen A) with (@len A).
    assert (RV : forall i y, at_ (rev l) i y <-> 0 <= i /\ at_ l (len l - 1 - i) y).
    { intros i y. unfold at_, len. split.
      - intros [H E]. assert (Z.to_nat i < length (rev l))%nat as B
          by (apply nth_error_Some; rewrite E; discriminate).
        rewrite rev_length in B. split; [assumption|]. split; [lia|].
        rewrite <- E. rewrite (nth_error_nth' (rev l) y) by (rewrite rev_length; lia).
        rewrite rev_nth by lia. rewrite <- nth_error_nth' by lia. f_equal. lia.
      - intros [H [H' E]]. split; [assumption|].
        assert (Z.to_nat (Z.of_nat (length l) - 1 - i) < length l)%nat as B
          by (apply nth_error_Some; rewrite E; discriminate).
        rewrite (nth_error_nth' (rev l) y) by (rewrite rev_length; lia).
        rewrite rev_nth by lia. rewrite <- nth_error_nth' by lia. rewrite <- E. f_equal. lia. }
    split.
    - intros [L E]. apply list_ext. intros i y. rewrite RV. split; intros H.
      + pose proof (at_range _ _ _ H). split; [lia|]. apply vget_at. rewrite <- E by lia.
        apply vget_at. assumption.
      + destruct H as [H1 H2]. pose proof (at_range _ _ _ H2). apply vget_at. rewrite E by lia.
        apply vget_at. assumption.
    - intros ->. unfold len at 1. rewrite rev_length. split; [reflexivity|].
      intros i [I1 I2]. unfold len in I2. rewrite rev_length in I2. fold (len l) in I2.
      destruct (at_exists l (len l - 1 - i)) as [y Y]; [lia|].
      transitivity (Some y); [apply vget_at, RV; split; [lia|assumption]|symmetry; apply vget_at; assumption].
  Qed.

  (** ** Equality based operations *)
  Variable eq : A -> A -> bool.


  Lemma contains_ok : forall l x b, eq_is_identity eq l x ->
    (list_contains_post l x b <-> (b = true <-> py_contains eq l x)).
  Proof.
    intros l x b E. unfold list_contains_post, py_contains.
    assert (H : In x l <-> exists y, In y l /\ (y = x \/ eq y x = true)).
    { split; [intros I; exists x; auto|]. intros (y & I & [->|Q]); [assumption|].
      rewrite <- (E y I Q). assumption. }
    rewrite H. tauto.
  Qed.

  Lemma index_ok : forall l x i, eq_is_identity eq l x ->
    (list_index_post l x i <-> py_index eq l x i).
  Proof.
    intros l x i E. unfold list_index_post, py_index. change (@vlen A) with (@len A). split.
    - intros (I1 & I2 & G & F). split.
      + exists x. split; [apply vget_at; assumption|left; reflexivity].
      + intros j y J Y [->|Q].
        * apply (F j); [pose proof (at_range _ _ _ Y); lia|]. apply vget_at. assumption.
        * assert (y = x) by (apply E; [apply at_in; exists j; assumption|assumption]). subst.
          apply (F j); [pose proof (at_range _ _ _ Y); lia|]. apply vget_at. assumption.
    - intros [(y & Y & Q) F].
      assert (y = x) by (destruct Q as [Q|Q]; [assumption|apply E; [apply at_in; exists i; assumption|assumption]]).
      subst. pose proof (at_range _ _ _ Y). split; [lia|]. split; [lia|].
      split; [apply vget_at; assumption|]. intros j J G. apply vget_at in G.
      apply (F j x ltac:(lia) G). left. reflexivity.
  Qed.

  Definition remove_rel (l : list A) (x : A) (l' : list A) : Prop :=
    vlen l' = vlen l - 1 /\
    exists i, 0 <= i /\ i < vlen l /\ vget l i = Some x /\
      (forall j, 0 <= j /\ j < i -> vget l j <> Some x) /\
      l' = vtake i l ++ vdrop (i + 1) l.

  Lemma remove_ok : forall l x l', eq_is_identity eq l x ->
    (remove_rel l x l' <-> py_remove eq l x l').
  Proof.
    intros l x l' E. unfold remove_rel. change (@vlen A) with (@len A). split.
    - intros (L & i & I1 & I2 & G & F & ->). apply vget_at in G.
      exists (vtake i l), x, (vdrop (i + 1) l). split; [|split; [reflexivity|split; [left; reflexivity|]]].
      + apply list_ext. intros j y. rewrite at_app, len_take, at_take, at_cons, at_drop by lia. split.
        * intros H. destruct (Z_lt_le_dec j i); [left; auto|]. right. split; [assumption|].
          destruct (Z.eq_dec j i) as [->|N].
          -- left. split; [lia|]. apply (at_fun l i); assumption.
          -- right. split; [lia|]. split; [lia|]. replace (i + 1 + (j - i - 1)) with j by lia. assumption.
        * intros [[_ [_ H]]|[H [[H1 ->]|[H1 [H2 H3]]]]]; [assumption| |].
          -- replace j with i by lia. assumption.
          -- replace (i + 1 + (j - i - 1)) with j in H3 by lia. assumption.
      + intros z Z Q. apply at_in in Z. destruct Z as [j Z]. apply at_take in Z. destruct Z as [J Z].
        assert (z = x) by (destruct Q as [Q|Q]; [assumption|apply E; [apply at_in; exists j; assumption|assumption]]).
        subst. apply (F j); [pose proof (at_range _ _ _ Z); lia|]. apply vget_at. assumption.
    - intros (b & y & a & -> & -> & Q & F).
      assert (y = x).
      { destruct Q as [Q|Q]; [assumption|]. apply E; [|assumption]. apply in_or_app. right. left. reflexivity. }
      subst. pose proof (len_nonneg b). pose proof (len_nonneg a).
      split; [rewrite !len_app, len_cons; lia|].
      exists (len b). split; [lia|]. split; [rewrite len_app, len_cons; lia|]. split; [|split].
      + apply vget_at. apply at_app. right. split; [lia|]. apply at_cons. left. split; [lia|reflexivity].
      + intros j J G. apply vget_at in G. apply at_app in G. destruct G as [[_ G]|[G _]]; [|lia].
        apply (F x); [apply at_in; exists j; assumption|left; reflexivity].
      + unfold vtake, vdrop, len. rewrite Nat2Z.id.
        replace (Z.to_nat (Z.of_nat (length b) + 1)) with (S (length b)) by lia.
        rewrite firstn_app, firstn_all, Nat.sub_diag. cbn [firstn]. rewrite app_nil_r. f_equal.
        change (x :: a) with ([x] ++ a). rewrite app_assoc.
        replace (S (length b)) with (length (b ++ [x])) by (rewrite app_length; cbn; lia).
        rewrite skipn_app, skipn_all, Nat.sub_diag. reflexivity.
  Qed.

  Lemma Forall2_at : forall (R : A -> A -> Prop) l o,
    Forall2 R l o <-> (len l = len o /\ forall i x y, at_ l i x -> at_ o i y -> R x y).
  Proof.
    intros R l o. split.
    - induction 1 as [|x y l o H F IH]; [split; [reflexivity|intros i x y H; exfalso; exact (at_nil _ _ H)]|].
      destruct IH as [L IH]. split; [rewrite !len_cons; lia|].
      intros i a b Ha Hb. apply at_cons in Ha. apply at_cons in Hb.
      destruct Ha as [[-> ->]|[P Ha]], Hb as [[Q ->]|[Q Hb]]; try lia; [assumption|].
      apply (IH (i - 1)); assumption.
    - revert o. induction l as [|x l IH]; intros o [L H].
      + destruct o; [constructor|]. rewrite len_cons in L. unfold len in L. cbn in L. lia.
      + destruct o as [|y o]; [rewrite len_cons in L; unfold len in L; cbn in L; lia|].
        constructor.
        * apply (H 0); apply at_cons; left; auto.
        * apply IH. rewrite !len_cons in L. split; [lia|]. intros i a b Ha Hb.
          pose proof (at_range _ _ _ Ha).
          apply (H (i + 1)); apply at_cons; right; (split; [lia|]); replace (i + 1 - 1) with i by lia; assumption.
  Qed.

  Lemma list_eq_ok : forall l o b, list_eq_post eq l o b <-> (b = true <-> py_seq_eq eq l o).
  Proof.
    intros l o b. unfold list_eq_post, py_seq_eq. rewrite Forall2_at.
    assert (C1 : (list_len l = list_len o /\
       (forall i, i >= 0 /\ i < list_len l -> forall x y, vget l i = Some x -> vget o i = Some y -> eq x y = true))
      <-> (len l = len o /\ forall i x y, at_ l i x -> at_ o i y -> eq x y = true)).
    { unfold list_len. change (@vlen A) with (@len A). split; intros [L H]; (split; [assumption|]).
      - intros i x y X Y. pose proof (at_range _ _ _ X). apply (H i ltac:(lia)); apply vget_at; assumption.
      - intros i I x y X Y. apply vget_at in X. apply vget_at in Y. apply (H i); assumption. }
    assert (C2 : (list_len l = list_len o /\
       (forall i : pyint, unbox i >= 0 /\ unbox i < list_len l -> forall x y,
         list_getitem_post l (unbox i) x -> list_getitem_post o (unbox i) y -> eq x y = true))
      <-> (len l = len o /\ forall i x y, at_ l i x -> at_ o i y -> eq x y = true)).
    { unfold list_len, list_getitem_post. change (@vlen A) with (@len A). split; intros [L H]; (split; [assumption|]).
      - intros i x y X Y. pose proof (at_range _ _ _ X).
        specialize (H (PyInt i)). cbn [unbox] in H. destruct (Z.leb_spec 0 i); [|lia].
        apply H; [lia| |]; symmetry; apply vget_at; assumption.
      - intros i I x y X Y. destruct (Z.leb_spec 0 (unbox i)); [|lia].
        apply (H (unbox i)); apply vget_at; symmetry; assumption. }
    rewrite C1, C2. tauto.
  Qed.

  Lemma tuple_eq_ok : forall l o b, tuple_eq_post eq l o b <-> (b = true <-> py_seq_eq eq l o).
  Proof.
    intros l o b. unfold tuple_eq_post, tuple_eq_clause, py_seq_eq. rewrite Forall2_at.
    assert (POS : forall (I : Type) (num : I -> Z) (mk : Z -> I), (forall z, num (mk z) = z) ->
      ((tuple_len l = tuple_len o /\
       (forall i : I, num i >= 0 /\ num i < tuple_len l -> forall x y,
         tuple_getitem_post l (num i) x -> tuple_getitem_post o (num i) y -> eq x y = true))
      <-> (len l = len o /\ forall i x y, at_ l i x -> at_ o i y -> eq x y = true))).
    { intros I num mk M. unfold tuple_getitem_post, tuple_len. change (@vlen A) with (@len A).
      split; intros [L H]; (split; [assumption|]).
      - intros i x y X Y. pose proof (at_range _ _ _ X).
        specialize (H (mk i)). rewrite M in H.
        apply H; [lia| |]; (split; [|lia]); intros _; symmetry; apply vget_at; assumption.
      - intros i R x y [X _] [Y _].
        apply (H (num i)); apply vget_at; symmetry; auto. apply X. lia. apply Y. lia. }
    assert (NEG : forall (I : Type) (num : I -> Z) (mk : Z -> I), (forall z, num (mk z) = z) ->
      ((tuple_len l = tuple_len o /\
       (forall i : I, num i <= -1 /\ num i >= - tuple_len l -> forall x y,
         tuple_getitem_post l (num i) x -> tuple_getitem_post o (num i) y -> eq x y = true))
      <-> (len l = len o /\ forall i x y, at_ l i x -> at_ o i y -> eq x y = true))).
    { intros I num mk M. unfold tuple_getitem_post, tuple_len. change (@vlen A) with (@len A).
      split; intros [L H]; (split; [assumption|]).
      - intros i x y X Y. pose proof (at_range _ _ _ X).
        specialize (H (mk (i - len l))). rewrite M in H.
        apply H; [lia| |]; (split; [lia|]); intros _; symmetry; apply vget_at.
        + replace (len l + (i - len l)) with i by lia. assumption.
        + replace (len o + (i - len l)) with i by lia. assumption.
      - intros i R x y [_ X] [_ Y].
        apply (H (len l + num i)); apply vget_at; symmetry.
        + apply X. lia.
        + rewrite L. apply Y. lia. }
    rewrite (POS Z (fun i => i) (fun i => i)) by reflexivity.
    rewrite (NEG Z (fun i => i) (fun i => i)) by reflexivity.
    rewrite (POS pyint unbox PyInt) by reflexivity.
    rewrite (NEG pyint unbox PyInt) by reflexivity. tauto.
  Qed.

  (** ** Tuples *)
  Lemma declared_len_ok : forall n, 0 <= n <= 6 -> declared_len n = n.
  Proof.
    intros n N. unfold declared_len.
    repeat match goal with |- context [n =? ?k] => destruct (Z.eqb_spec n k); [lia|] end. lia.
  Qed.
  Lemma declared_len_bad : forall n, 7 <= n -> declared_len n = 6.
  Proof.
    intros n N. unfold declared_len.
    repeat match goal with |- context [n =? ?k] => destruct (Z.eqb_spec n k); [lia|] end. lia.
  Qed.

  Lemma tuple_create_ok : forall args t : list A, len args <= 6 -> (tuple_create_post args t <-> t = args).
  Proof.
    intros args t L. pose proof (len_nonneg args) as N. unfold tuple_create_post. split; [tauto|].
    intros ->. split; [reflexivity|]. unfold tuple_len. rewrite vlen_len, declared_len_ok by lia.
    split; [reflexivity|]. intros i x X. pose proof (at_range _ _ _ (proj1 (vget_at _ _ _) X)).
    split; [intros _; auto|lia].
  Qed.

  Lemma tuple_create_unsat : forall args t : list A, 7 <= len args -> ~ tuple_create_post args t.
  Proof.
    intros args t L (-> & D & _). unfold tuple_len in D. rewrite vlen_len, declared_len_bad in D by lia. lia.
  Qed.

End Gen.

Lemma vlen_cons_pos : forall (A : Type) (x : A) l, 0 < vlen (x :: l).
Proof. intros. unfold vlen. cbn [length]. lia. Qed.

Lemma skipn_S_nth : forall (A : Type) n (l : list A) x, nth_error l n = Some x -> skipn n l = x :: skipn (S n) l.
Proof.
  induction n as [|n IH]; intros l x E; destruct l as [|y l]; cbn in *; try discriminate.
  - congruence.
  - apply IH. assumption.
Qed.

Lemma join_helper_ok : forall fuel (l : list bytes) (sep : bytes) i,
  0 <= i < vlen l -> (length l <= fuel + Z.to_nat i)%nat ->
  join_helper fuel l sep i = py_join sep (skipn (Z.to_nat i) l).
Proof.
  induction fuel as [|f IH]; intros l sep i I F; unfold vlen in I; [lia|].
  cbn [join_helper]. unfold vlen. unfold vget. destruct (Z.ltb_spec i 0); [lia|].
  destruct (nth_error l (Z.to_nat i)) as [e|] eqn:E; [|apply nth_error_None in E; lia].
  rewrite (skipn_S_nth _ _ _ _ E).
  destruct (Z.ltb_spec i (Z.of_nat (length l) - 1)).
  - rewrite IH by (unfold vlen; lia). replace (Z.to_nat (i + 1)) with (S (Z.to_nat i)) by lia.
    cbn [py_join]. destruct (skipn (S (Z.to_nat i)) l) eqn:S; [|reflexivity].
    exfalso. apply (f_equal (@length _)) in S. rewrite skipn_length in S. cbn in S. lia.
  - rewrite skipn_all2 by lia. reflexivity.
Qed.

Lemma bytes_join_ok : forall sep parts r, bytes_join_post sep parts r <-> r = py_join sep parts.
Proof.
  intros sep parts r. unfold bytes_join_post. destruct parts as [|p parts].
  - cbn. tauto.
  - destruct (Z.eqb_spec (vlen (p :: parts)) 0) as [E|E]; [pose proof (vlen_cons_pos _ p parts); lia|].
    rewrite join_helper_ok; [reflexivity| |].
    + pose proof (vlen_cons_pos _ p parts). lia.
    + cbn. lia.
Qed.

Lemma concat_repeat_comm : forall (A : Type) (s : list A) k,
  concat (repeat s k) ++ s = s ++ concat (repeat s k).
Proof.
  induction k as [|k IH]; cbn [repeat concat].
  - rewrite app_nil_r. reflexivity.
  - rewrite <- app_assoc. rewrite IH. reflexivity.
Qed.

Lemma mul_helper_ok : forall fuel s n, 0 <= n -> (Z.to_nat n <= fuel)%nat ->
  mul_helper_fuel fuel s n = py_repeat s n.
Proof.
  induction fuel as [|f IH]; intros s n N F; unfold py_repeat.
  - assert (n = 0) by lia. subst. reflexivity.
  - cbn [mul_helper_fuel]. destruct (Z.eqb_spec n 0) as [->|N0]; [reflexivity|].
    destruct (Z.eqb_spec n 1) as [->|N1]; [change (Z.to_nat 1) with 1%nat; cbn [repeat concat]; rewrite app_nil_r; reflexivity|].
    rewrite IH by lia. unfold py_repeat.
    replace (Z.to_nat n) with (S (Z.to_nat (n - 1))) by lia. cbn [repeat concat].
    apply concat_repeat_comm.
Qed.

Lemma bytes_mul_ok : forall s n r, bytes_mul_pre n -> (bytes_mul_post s n r <-> r = py_repeat s n).
Proof.
  intros s n r P. unfold bytes_mul_pre in P. unfold bytes_mul_post, bytes_mul_helper, bytes_len.
  rewrite mul_helper_ok by lia. split; [tauto|]. intros ->. split; [|reflexivity].
  change (vlen (py_repeat s n)) with (len (py_repeat s n)). rewrite mul_seq_len.
  change (vlen s) with (len s). destruct (Z.ltb_spec 0 n); [reflexivity|]. assert (n = 0) by lia. lia.
Qed.

(** * Heap-level statements for lists *)
Section Heaps.
  Context {V : Type}.
  Implicit Types (h : @heap V).



  Lemma framed_one : forall n h h', framed [n] h h' <-> (forall l, l <> n -> h' l = h l).
  Proof. intros n h h'. unfold framed. cbn. split; intros H l N; apply H; intuition congruence. Qed.

  Lemma heap_append : forall h self x h', list_append_post h self x h' <->
    updates h self h' (fun s s' => py_append s x s').
  Proof.
    intros. unfold list_append_post, updates. setoid_rewrite framed_one. split.
    - intros (s & H1 & H2 & F). exists s, (s ++ [x]). split; [assumption|split; [assumption|split; [apply append_ok; reflexivity|assumption]]].
    - intros (s & s' & H1 & H2 & R & F). apply append_ok in R. subst. exists s. auto.
  Qed.

  Lemma heap_insert : forall h self k x h', list_insert_post h self k x h' <->
    updates h self h' (fun s s' => py_insert s k x s').
  Proof.
    intros. unfold list_insert_post, updates. setoid_rewrite framed_one. cbv zeta. split.
    - intros (s & H1 & H2 & F). eexists s, _. split; [eassumption|]. split; [eassumption|].
      split; [apply insert_ok; reflexivity|assumption].
    - intros (s & s' & H1 & H2 & R & F). apply insert_ok in R. subst. exists s. auto.
  Qed.

  Lemma heap_setitem : forall h self k x h' s, h self = Some s -> list_setitem_pre s k ->
    (list_setitem_post h self k x h' <-> updates h self h' (fun s s' => py_setitem s k x s')).
  Proof.
    intros h self k x h' s0 H0 P. unfold list_setitem_post, updates. setoid_rewrite framed_one. split.
    - intros (s & H1 & H2 & F). replace s with s0 in * by congruence.
      eexists s0, _. split; [eassumption|]. split; [eassumption|].
      split; [apply setitem_ok; [assumption|reflexivity]|assumption].
    - intros (s & s' & H1 & H2 & R & F). replace s with s0 in * by congruence.
      apply (setitem_ok _ _ _ _ P) in R. subst. exists s0. auto.
  Qed.

  Lemma heap_extend : forall h self other h' o, list_extend_pre self other -> h other = Some o ->
    (list_extend_post h self other h' <-> updates h self h' (fun s s' => py_concat s o s')).
  Proof.
    intros h self other h' o P H0. unfold list_extend_post, updates. setoid_rewrite framed_one. split.
    - intros (s & o' & H1 & H2 & H3 & F). assert (o' = o).
      { rewrite F in H2 by (intros E; apply P; auto). congruence. }
      subst. exists s, (s ++ o). split; [assumption|split; [assumption|split; [apply concat_ok; reflexivity|assumption]]].
    - intros (s & s' & H1 & H2 & R & F). apply concat_ok in R. subst. exists s, o.
      rewrite (F other) by (intros E; apply P; auto). auto.
  Qed.

  Lemma heap_add : forall h self other h' res o, h other = Some o ->
    (list_add_post h self other h' res <-> creates h self h' res (fun s r => py_concat s o r)).
  Proof.
    intros h self other h' res o H0. unfold list_add_post, creates. setoid_rewrite framed_one. split.
    - intros (s & o' & H1 & H2 & H3 & H4 & F). replace o' with o in * by congruence.
      exists s, (s ++ o). split; [assumption|split; [assumption|split; [assumption|split; [apply concat_ok; reflexivity|assumption]]]].
    - intros (s & r & H1 & H2 & H3 & R & F). apply concat_ok in R. subst. exists s, o. auto.
  Qed.

  Lemma heap_mul : forall h self n h' res, list_mul_post h self n h' res <->
    creates h self h' res (fun s r => r = py_repeat s n).
  Proof.
    intros. unfold list_mul_post, creates. setoid_rewrite framed_one. split.
    - intros (s & r & H1 & H2 & H3 & L & E & F). exists s, r. repeat split; try assumption.
      apply mul_ok. auto.
    - intros (s & r & H1 & H2 & H3 & R & F). apply mul_ok in R. destruct R. exists s, r. auto 10.
  Qed.

  Lemma heap_copy : forall h self h' res, list_copy_post h self h' res <->
    creates h self h' res (fun s r => r = s).
  Proof.
    intros. unfold list_copy_post, creates. setoid_rewrite framed_one. split.
    - intros (s & H1 & N & H2 & H3 & F). exists s, s. auto.
    - intros (s & r & H1 & H2 & H3 & -> & F). exists s. repeat split; try assumption. congruence.
  Qed.

  Lemma heap_slice : forall h self k h' res, list_getitem_slice_post h self k h' res <->
    creates h self h' res (fun s r => r = py_slice s (internal_start k) (internal_stop k)).
  Proof.
    intros. unfold list_getitem_slice_post, creates, list_len. setoid_rewrite framed_one. split.
    - intros (s & H1 & H2 & H3 & F). rewrite slice_ok in H3. eexists s, _. eauto 6.
    - intros (s & r & H1 & H2 & H3 & -> & F). exists s. rewrite slice_ok. auto.
  Qed.

  Lemma heap_remove : forall (eq : V -> V -> bool) h self x h',
    (forall s, h self = Some s -> eq_is_identity eq s x) ->
    (list_remove_post h self x h' <-> updates h self h' (fun s s' => py_remove eq s x s')).
  Proof.
    intros eq h self x h' E. unfold list_remove_post, updates. setoid_rewrite framed_one. split.
    - intros (s & s' & H1 & H2 & L & R & F). exists s, s'. split; [assumption|split; [assumption|split; [|assumption]]].
      apply remove_ok; [auto|]. split; assumption.
    - intros (s & s' & H1 & H2 & R & F). apply (remove_ok eq) in R; [|auto]. destruct R as [L R].
      exists s, s'. auto 8.
  Qed.

  Lemma heap_reverse : forall h self h' res, list_reverse_post h self h' res <->
    creates h self h' res (fun s r => r = rev s).
  Proof.
    intros. unfold list_reverse_post, creates. setoid_rewrite framed_one. split.
    - intros (s & r & H1 & H2 & H3 & L & R & F). exists s, r. repeat split; try assumption.
      apply reverse_ok. auto.
    - intros (s & r & H1 & H2 & H3 & R & F). apply reverse_ok in R. destruct R. exists s, r. auto 10.
  Qed.
End Heaps.

(** * Ranges *)

Lemma SS_lt_ext : forall l r, StronglySorted Z.lt l -> StronglySorted Z.lt r ->
  (forall x, In x l <-> In x r) -> l = r.
Proof.
  induction l as [|x l IH]; intros r L R H.
  - destruct r as [|y r]; [reflexivity|]. exfalso. apply (proj2 (H y)). left. reflexivity.
  - destruct r as [|y r]; [exfalso; apply (proj1 (H x)); left; reflexivity|].
    inversion L as [|? ? L1 L2]; subst. inversion R as [|? ? R1 R2]; subst.
    rewrite Forall_forall in L2, R2.
    assert (x = y).
    { destruct (proj1 (H x) (or_introl eq_refl)) as [E|E]; [auto|].
      destruct (proj2 (H y) (or_introl eq_refl)) as [E'|E']; [auto|].
      specialize (L2 _ E'). specialize (R2 _ E). lia. }
    subst y. f_equal. apply IH; try assumption. intros z. split; intros Z.
    + destruct (proj1 (H z) (or_intror Z)) as [E|E]; [|assumption]. specialize (L2 _ Z). lia.
    + destruct (proj2 (H z) (or_intror Z)) as [E|E]; [|assumption]. specialize (R2 _ Z). lia.
Qed.

Lemma py_range_unique : forall a b c r r', py_range a b c r -> py_range a b c r' -> r = r'.
Proof.
  intros a b c r r' [S1 I1] [S2 I2]. apply SS_lt_ext; try assumption.
  intros x. rewrite I1, I2. tauto.
Qed.

(** arithmetic progression *)
Definition prog (start step : Z) (n : nat) : list Z := map (fun i => start + Z.of_nat i * step) (seq 0 n).

Lemma map_seq_sorted : forall start step n k, 0 < step ->
  StronglySorted Z.lt (map (fun i => start + Z.of_nat i * step) (seq k n)).
Proof.
  intros start step n. induction n as [|n IH]; intros k P; cbn [seq map]; constructor.
  - apply IH. assumption.
  - rewrite Forall_forall. intros x I. apply in_map_iff in I. destruct I as (j & <- & J).
    apply in_seq in J. nia.
Qed.

Lemma at_prog : forall start step n i y, at_ (prog start step n) i y <-> 0 <= i < Z.of_nat n /\ y = start + i * step.
Proof.
  intros start step n i y. unfold prog, at_. split.
  - intros [H E]. assert (B : (Z.to_nat i < n)%nat).
    { assert (Z.to_nat i < length (map (fun i => (start + Z.of_nat i * step)%Z) (seq 0 n)))%nat
        by (apply nth_error_Some; rewrite E; discriminate). rewrite map_length, seq_length in *. assumption. }
    split; [lia|]. rewrite nth_error_map in E.
    rewrite (nth_error_nth' (seq 0 n) O) in E by (rewrite seq_length; assumption).
    rewrite seq_nth in E by assumption. cbn in E. injection E as E. subst. rewrite Z2Nat.id by lia. reflexivity.
  - intros [H ->]. split; [lia|]. rewrite nth_error_map.
    rewrite (nth_error_nth' (seq 0 n) O) by (rewrite seq_length; lia).
    rewrite seq_nth by lia. cbn. rewrite Z2Nat.id by lia. reflexivity.
Qed.

Lemma len_prog : forall start step n, len (prog start step n) = Z.of_nat n.
Proof. intros. unfold len, prog. rewrite map_length, seq_length. reflexivity. Qed.

Lemma step_count : forall start stop step, 0 < step ->
  let n := (if stop <=? start then 0 else (stop - start + step - 1) / step) in
  0 <= n /\ forall i, 0 <= i -> (i < n <-> start + i * step < stop).
Proof.
  intros start stop step P n. unfold n. destruct (Z.leb_spec stop start).
  - split; [lia|]. intros i I. nia.
  - pose proof (Z.div_mod (stop - start + step - 1) step ltac:(lia)) as D.
    pose proof (Z.mod_pos_bound (stop - start + step - 1) step P) as M.
    set (q := (stop - start + step - 1) / step) in *. split; [nia|]. intros i I. split; intros; nia.
Qed.

Lemma prog_range : forall start stop step, 0 < step ->
  py_range start stop step
    (prog start step (Z.to_nat (if stop <=? start then 0 else (stop - start + step - 1) / step))).
Proof.
  intros start stop step P. pose proof (step_count start stop step P) as C. cbv zeta in C.
  set (n := if stop <=? start then 0 else (stop - start + step - 1) / step) in *.
  destruct C as [N C]. split; [apply map_seq_sorted; assumption|].
  intros x. rewrite at_in. split.
  - intros [i H]. apply at_prog in H. destruct H as [H ->]. rewrite Z2Nat.id in H by assumption.
    exists i. split; [lia|]. split; [reflexivity|]. apply C; lia.
  - intros (i & I & -> & L). exists i. apply at_prog. rewrite Z2Nat.id by assumption.
    split; [|reflexivity]. split; [assumption|]. apply C; assumption.
Qed.

Lemma range_step_ok : forall start stop step r, range_create_step_pre start stop step ->
  (range_create_step_post start stop step r <-> py_range start stop step r).
Proof.
  intros start stop step r P. unfold range_create_step_pre in P. unfold range_create_step_post.
  rewrite IntProofs.viper_div_pos by lia. pose proof (prog_range start stop step ltac:(lia)) as G.
  pose proof (step_count start stop step ltac:(lia)) as C. cbv zeta in C.
  set (n := if stop <=? start then 0 else (stop - start + step - 1) / step) in *.
  destruct C as [N _].
  assert (E : (vlen r = n /\ (forall i, i >= 0 /\ i < vlen r -> vget r i = Some (start + i * step)))
              <-> r = prog start step (Z.to_nat n)).
  { change (vlen r) with (len r). split.
    - intros [L H]. apply list_ext. intros i y. rewrite at_prog, Z2Nat.id by assumption. split.
      + intros A. pose proof (at_range _ _ _ A). split; [lia|]. apply vget_at in A. rewrite H in A by lia. congruence.
      + intros [R ->]. apply vget_at. apply H. lia.
    - intros ->. rewrite len_prog, Z2Nat.id by assumption. split; [reflexivity|].
      intros i I. apply vget_at. apply at_prog. rewrite Z2Nat.id by assumption. split; [lia|reflexivity]. }
  rewrite E. split.
  - intros ->. assumption.
  - intros R. apply (py_range_unique start stop step); assumption.
Qed.

Lemma vrange_prog : forall a b, vrange a b = prog a 1 (Z.to_nat (b - a)).
Proof. intros. unfold vrange, prog. apply map_ext. intros. lia. Qed.

Lemma range_ok : forall start stop r, range_create_post start stop r <-> py_range start stop 1 r.
Proof.
  intros start stop r. unfold range_create_post. rewrite vrange_prog.
  pose proof (prog_range start stop 1 ltac:(lia)) as G.
  replace (Z.to_nat (if stop <=? start then 0 else (stop - start + 1 - 1) / 1)) with (Z.to_nat (stop - start)) in G.
  - split; [intros ->; assumption|]. intros R. apply (py_range_unique start stop 1); assumption.
  - destruct (Z.leb_spec stop start); [lia|]. rewrite Z.div_1_r. f_equal. lia.
Qed.

Lemma translate_range_ok : forall args pre post, translate_range args = Some (pre, post) -> pre ->
  exists start stop step, (args = [stop] /\ start = 0 /\ step = 1 \/ args = [start; stop] /\ step = 1 \/
                           args = [start; stop; step]) /\
  forall r, post r <-> py_range start stop step r.
Proof.
  intros args pre post E P. destruct args as [|a [|b [|c [|d args]]]]; try discriminate; cbn in E; inversion E; subst; clear E.
  - exists 0, a, 1. split; [auto|]. intros r. apply range_ok.
  - exists a, b, 1. split; [auto|]. intros r. apply range_ok.
  - exists a, b, c. split; [auto|]. intros r. apply range_step_ok. assumption.
Qed.

Lemma boxed_prog : forall r : range, range_sil_seq_post r (map PyInt r).
Proof.
  intros r. split; [unfold vlen, range_len; rewrite map_length; reflexivity|]. split.
  - intros i x I E. unfold vget in *. destruct (i <? 0); [discriminate|]. rewrite nth_error_map, E. reflexivity.
  - intros i. rewrite in_map_iff. split.
    + intros (x & <- & I). auto.
    + intros [B I]. destruct i as [z|b]; [|discriminate]. exists z. auto.
Qed.

Lemma range_contains_ok : forall r z b, range_contains_post r (PyInt z) b <-> (b = true <-> In z r).
Proof.
  intros r z b. unfold range_contains_post. split.
  - intros (s & (_ & _ & H) & E). rewrite E, (H (PyInt z)). cbn. tauto.
  - intros E. exists (map PyInt r). split; [apply boxed_prog|]. rewrite E. rewrite in_map_iff. split.
    + intros I. exists z. auto.
    + intros (x & X & I). congruence.
Qed.

Lemma range_contains_bool_false : forall r x b, range_contains_post r (PyBool x) b -> b = false.
Proof.
  intros r x b (s & (_ & _ & H) & E). destruct b; [|reflexivity].
  assert (I : In (PyBool x) s) by (apply E; reflexivity). apply H in I. cbn in I. destruct I. discriminate.
Qed.

(** * Strings *)
Lemma str_denotes_value : forall e r, str_denotes e r ->
  str_val r = py_str e /\ str_len r = len (py_str e).
Proof.
  induction 1 as [s r (W & L & E)|a b ra rb r Da [IHa La] Db [IHb Lb] (W & L & E)]; cbn [py_str].
  - auto.
  - rewrite len_app. split; [congruence|lia].
Qed.

Lemma str_denotes_sat : forall e, exists r, str_denotes e r.
Proof.
  induction e as [s|a [ra IHa] b [rb IHb]].
  - exists {| str_len := vlen s; str_val := s |}. constructor. repeat split. unfold str_wf, vlen. cbn. lia.
  - destruct (str_denotes_value _ _ IHa) as [Ea La]. destruct (str_denotes_value _ _ IHb) as [Eb Lb].
    exists {| str_len := str_len ra + str_len rb; str_val := str_val ra ++ str_val rb |}.
    econstructor; try eassumption. repeat split. unfold str_wf. cbn. rewrite La, Lb.
    pose proof (len_nonneg (py_str a)). pose proof (len_nonneg (py_str b)). lia.
Qed.

Lemma str_eq_ok : forall e1 e2 r1 r2 b, str_denotes e1 r1 -> str_denotes e2 r2 ->
  (str_eq_post r1 r2 b <-> (b = true <-> py_str e1 = py_str e2)).
Proof.
  intros e1 e2 r1 r2 b D1 D2. destruct (str_denotes_value _ _ D1) as [E1 L1].
  destruct (str_denotes_value _ _ D2) as [E2 L2]. unfold str_eq_post. rewrite E1, E2, L1, L2. split.
  - intros [H _]. rewrite H. tauto.
  - intros H. split; [rewrite H; tauto|]. intros T. apply H in T. rewrite T. reflexivity.
Qed.

Lemma str_bool_ok : forall e r b, str_denotes e r -> (str_bool_post r b <-> (b = true <-> py_str e <> [])).
Proof.
  intros e r b D. destruct (str_denotes_value _ _ D) as [_ L]. unfold str_bool_post. rewrite L.
  destruct (py_str e) as [|x l] eqn:E.
  - cbn. split; [intros ->; split; [discriminate|congruence]|]. intros H. destruct b; [|reflexivity].
    exfalso. apply (proj1 H); reflexivity.
  - rewrite len_cons. pose proof (len_nonneg l). destruct (Z.eqb_spec (len l + 1) 0); [lia|]. cbn.
    split; [intros ->; split; [discriminate|reflexivity]|]. intros HB. apply HB. discriminate.
Qed.

(** * Bytearrays and byte sequences *)
Lemma ba_from_int_ok : forall n r, 0 <= n -> (ba_from_int_post n r <-> r = repeat 0 (Z.to_nat n)).
Proof.
  intros n r N. unfold ba_from_int_post. change (vlen r) with (len r).
  assert (R : forall i y, at_ (repeat 0 (Z.to_nat n)) i y <-> 0 <= i < n /\ y = 0).
  { intros i y. unfold at_. split.
    - intros [H E]. assert (B : (Z.to_nat i < length (repeat 0%Z (Z.to_nat n)))%nat)
        by (apply nth_error_Some; rewrite E; discriminate). rewrite repeat_length in B.
      split; [lia|]. apply nth_error_In in E. apply repeat_spec in E. assumption.
    - intros [H ->]. split; [lia|]. rewrite (nth_error_nth' _ 1) by (rewrite repeat_length; lia).
      f_equal. apply (repeat_spec (Z.to_nat n) 0). apply nth_In. rewrite repeat_length. lia. }
  split.
  - intros [L H]. apply list_ext. intros i y. rewrite R. split.
    + intros A. pose proof (at_range _ _ _ A). split; [lia|]. apply vget_at in A. rewrite H in A by lia. congruence.
    + intros [I ->]. apply vget_at. apply H. lia.
  - intros ->. unfold len. rewrite repeat_length. split; [lia|]. intros i I. apply vget_at. apply R. lia.
Qed.

Lemma ba_from_int_unsat : forall n r, n < 0 -> ~ ba_from_int_post n r.
Proof. intros n r N [L _]. unfold vlen in L. lia. Qed.

Lemma ba_from_list_ok : forall vs r, ba_from_list_post vs r <-> r = map unbox vs.
Proof.
  intros vs r. unfold ba_from_list_post. change (vlen r) with (len r). change (vlen vs) with (len vs).
  assert (M : forall i y, at_ (map unbox vs) i y <-> exists x, at_ vs i x /\ y = unbox x).
  { intros i y. unfold at_. rewrite nth_error_map. destruct (nth_error vs (Z.to_nat i)) as [x|]; cbn; split.
    - intros [H E]. exists x. split; [auto|congruence].
    - intros (x' & [H E] & ->). split; [assumption|congruence].
    - intros [_ E]. discriminate.
    - intros (x' & [_ E] & _). discriminate. }
  split.
  - intros [L H]. apply list_ext. intros i y. rewrite M. split.
    + intros A. pose proof (at_range _ _ _ A). destruct (at_exists vs i ltac:(lia)) as [x X].
      exists x. split; [assumption|]. apply vget_at in A. rewrite (H i x) in A; [congruence|lia|apply vget_at; assumption].
    + intros (x & X & ->). pose proof (at_range _ _ _ X). apply vget_at. apply H; [lia|apply vget_at; assumption].
  - intros ->. unfold len. rewrite map_length. split; [reflexivity|]. intros i x I X. apply vget_at. apply M.
    exists x. split; [apply vget_at; assumption|reflexivity].
Qed.



Lemma in_take : forall (A : Type) n (l : list A) x, In x (vtake n l) -> In x l.
Proof. intros A n l x I. apply at_in in I. destruct I as [i I]. apply at_take in I. apply at_in. exists i. tauto. Qed.
Lemma in_drop : forall (A : Type) n (l : list A) x, In x (vdrop n l) -> In x l.
Proof.
  intros A n l x I. unfold vdrop in I. rewrite <- (firstn_skipn (Z.to_nat n) l). apply in_or_app. right. assumption.
Qed.

Lemma ba_reach_bounds : forall s, ba_reach s -> forall x, In x s -> byte_bounds x = true.
Proof.
  induction 1 as [|n r P|vs r P Q|s H IH|s k r H IH P|s k v s' H IH P Q|s v s' H IH P Q|s o s' H IH H' IH' P|s s' H IH P];
    intros x I.
  - destruct I.
  - destruct (Z_lt_le_dec n 0) as [N|N]; [exfalso; exact (ba_from_int_unsat _ _ N P)|].
    apply ba_from_int_ok in P; [|assumption]. subst. apply repeat_spec in I. subst. reflexivity.
  - apply ba_from_list_ok in Q. subst. apply in_map_iff in I. destruct I as (v & <- & I).
    apply at_in in I. destruct I as [i I]. pose proof (at_range _ _ _ I).
    apply (P i); [exact H|apply vget_at; assumption].
  - auto.
  - unfold ba_slice_post, vslice in P. subst. apply in_drop in I. apply in_take in I. auto.
  - unfold ba_setitem_post, vupd in Q. subst. destruct P as (_ & _ & P).
    apply in_app_or in I. destruct I as [I|[<-|I]]; [apply in_take in I; auto|assumption|apply in_drop in I; auto].
  - unfold ba_append_post in Q. subst. apply in_app_or in I. destruct I as [I|[<-|[]]]; auto.
  - unfold ba_extend_post in P. subst. apply in_app_or in I. destruct I; auto.
  - unfold ba_reverse_post in P. assert (s' = rev s).
    { apply reverse_ok. split; [symmetry; tauto|]. intros i Hi. destruct P as [L P]. rewrite P by assumption.
      rewrite L. reflexivity. }
    subst. apply IH. apply in_rev. assumption.
Qed.

Lemma byte_bounds_iff : forall x, byte_bounds x = true <-> 0 <= x < 256.
Proof. intros x. unfold byte_bounds. lia. Qed.

Lemma ba_reach_bytes : forall s, ba_reach s -> forall x, In x s -> 0 <= x < 256.
Proof. intros s R x I. apply byte_bounds_iff. exact (ba_reach_bounds s R x I). Qed.

(** Every list of bytes is reachable: from an empty bytearray, by appending. *)
Lemma ba_reach_all : forall s, (forall x, In x s -> 0 <= x < 256) -> ba_reach s.
Proof.
  intros s. induction s as [|x s IH] using rev_ind; intros H; [constructor|].
  apply reach_append with (s := s) (v := PyInt x).
  - apply IH. intros y Y. apply H. apply in_or_app. left. exact Y.
  - apply byte_bounds_iff. apply H. apply in_or_app. right. left. reflexivity.
  - reflexivity.
Qed.

Lemma list_bool_ok : forall (A : Type) (l : list A), list_bool l = true <-> l <> [].
Proof.
  intros A [|x l]; unfold list_bool.
  - split; [discriminate|congruence].
  - split; [discriminate|]. intros _. change (@vlen A) with (@len A). rewrite len_cons. pose proof (len_nonneg l). lia.
Qed.

Lemma bytes_bool_ok : forall b : bytes, bytes_bool b = true <-> b <> [].
Proof. exact (list_bool_ok pyint). Qed.

Lemma ba_getitem_ok : forall s k x, ba_reach s -> ba_getitem_pre s k ->
  (ba_getitem_post s k x <-> py_getitem s k x).
Proof.
  intros s k x R P. unfold ba_getitem_post. rewrite <- (getitem_iff s k x P).
  unfold list_getitem_post, list_len. split; [tauto|]. intros H. split; [assumption|].
  assert (py_getitem s k x) as [_ G] by (apply getitem_iff; assumption).
  apply (ba_reach_bounds s R). apply at_in. eexists. exact G.
Qed.

Lemma pbs_ops_ok : forall s, pbs_wf s ->
  (forall n r, pbs_take_post s n r <-> r = vtake n s) /\
  (forall n r, pbs_drop_post s n r <-> r = vdrop n s) /\
  (forall o r, pbs_wf o -> (pbs_add_post s o r <-> r = s ++ o)) /\
  (forall k v r, pbs_update_pre s k -> 0 <= v < 256 ->
     (pbs_update_post s k v r <-> py_setitem s k v r)).
Proof.
  intros s W. unfold pbs_take_post, pbs_drop_post, pbs_add_post, pbs_update_post, pbs_create_post.
  split; [|split; [|split]].
  - intros n r. split; [tauto|]. intros ->. split; [split; [|reflexivity]|].
    + intros i I. apply in_take in I. auto.
    + intros ->. unfold vtake, vlen. rewrite Nat2Z.id. apply firstn_all.
  - intros n r. split; [tauto|]. intros ->. split; [split; [|reflexivity]|].
    + intros i I. apply in_drop in I. auto.
    + intros ->. reflexivity.
  - intros o r W'. split; [tauto|]. intros ->. split; [|reflexivity].
    intros i I. apply in_app_or in I. destruct I; auto.
  - intros k v r P B. apply byte_bounds_iff in B. rewrite (setitem_ok s k v r P). split; [tauto|]. intros ->.
    split; [assumption|]. split; [|reflexivity].
    intros i I. unfold vupd in I. apply in_app_or in I.
    destruct I as [I|[<-|I]]; [apply in_take in I; auto|assumption|apply in_drop in I; auto].
Qed.

Lemma c08_bytearray_slice : forall s k r,
  ba_slice_post s k r <-> r = py_slice s (internal_start k) (internal_stop k).
Proof. intros s k r. unfold ba_slice_post. rewrite slice_ok. reflexivity. Qed.

Lemma c10_range_eq : forall (r o : range) b, range_eq_post r o b <-> (b = true <-> r = o).
Proof.
  intros r o b. unfold range_eq_post. split; [tauto|]. intros H. split; [tauto|].
  intros E. apply H in E. rewrite E. reflexivity.
Qed.

Lemma c11_accepted_literals : forall (V : Type) (args : list V) post, create_tuple args = Some post ->
  len args <= 9 /\ (satisfiable post <-> len args <= 6).
Proof.
  intros V args post E. unfold create_tuple in E. change (@vlen V) with (@len V) in E.
  destruct (Z.ltb_spec 9 (len args)) as [H|H]; [discriminate|]. injection E as <-.
  split; [exact H|]. split.
  - intros [t T]. destruct (Z_le_gt_dec (len args) 6) as [L|L]; [exact L|].
    exfalso. revert T. apply tuple_create_unsat. apply Z.gt_lt in L. apply Z.le_succ_l in L. exact L.
  - intros L. exists args. apply tuple_create_ok; [exact L|reflexivity].
Qed.

Lemma c34_bytes_literal : forall bs r, translate_bytes bs r <-> r = map PyInt bs.
Proof.
  intros bs r. unfold translate_bytes, bytes_create_post. split; [tauto|]. intros ->.
  split; reflexivity.
Qed.

Lemma c34_bytes_add : forall a b r, bytes_add_post a b r <-> py_concat a b r.
Proof.
  intros a b r. rewrite concat_ok. unfold bytes_add_post. split; [tauto|]. intros ->.
  split; [apply len_app|reflexivity].
Qed.

Lemma c34_bytearray_setitem : forall s k v s', ba_setitem_pre s k v ->
  (ba_setitem_post s k v s' <-> py_setitem s k (unbox v) s').
Proof. intros s k v s' (P1 & P2 & _). symmetry. apply setitem_ok. split; assumption. Qed.

Lemma c34_bytearray_append : forall s v s', ba_append_post s v s' <-> py_append s (unbox v) s'.
Proof. intros s v s'. symmetry. apply append_ok. Qed.

Lemma c34_bytearray_extend : forall s o s', ba_extend_post s o s' <-> py_concat s o s'.
Proof. intros s o s'. symmetry. apply concat_ok. Qed.

Lemma c34_bytearray_reverse : forall s s', ba_reverse_post s s' <-> s' = rev s.
Proof.
  intros s s'. unfold range in *. rewrite <- (reverse_ok s s'). unfold ba_reverse_post.
  split; intros [L H]; (split; [symmetry; exact L|]); intros i I.
  - rewrite H by exact I. rewrite L. reflexivity.
  - rewrite H by exact I. rewrite L. reflexivity.
Qed.

Lemma c34_bytearray_contains : forall s x b,
  ba_contains_post s x b <-> (b = true <-> py_contains int_eq (map PyInt s) x).
Proof.
  intros s x b. unfold ba_contains_post, py_contains.
  assert (H : In (unbox x) s <-> exists y, In y (map PyInt s) /\ (y = x \/ int_eq y x = true)).
  { split.
    - intros I. exists (PyInt (unbox x)). split; [apply in_map; exact I|right; apply Z.eqb_refl].
    - intros (y & I & E). apply in_map_iff in I. destruct I as (z & <- & I).
      destruct E as [<-|E]; [exact I|]. apply Z.eqb_eq in E. cbn in E. rewrite <- E. exact I. }
  rewrite H. tauto.
Qed.
