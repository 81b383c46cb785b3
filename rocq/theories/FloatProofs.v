From Coq Require Import ZArith Bool QArith Qround Qpower Qcanon Floats.SpecFloat Lia.
From Verif Require Import FloatModel FloatSpec.
Open Scope Z_scope.

(* ------------------------------------------------------------------------------------ *)
(* The real encoding: only the number matters. *)

Definition canon (v : pynum xval) : pynum xval := VFloat (num_of v).

Lemma canon_nan v : is_nan v = is_nan (canon v).
Proof. destruct v as [x|z|[]]; reflexivity. Qed.
Lemma canon_inf v n : is_inf v n = is_inf (canon v) n.
Proof. destruct v as [x|z|[]]; reflexivity. Qed.
Lemma canon_unbox v : unbox v = unbox (canon v).
Proof. destruct v as [[| |]|z|[]]; reflexivity. Qed.
Lemma canon_finite v : finite v <-> finite (canon v).
Proof. unfold finite; rewrite <- canon_nan, <- !canon_inf; reflexivity. Qed.

Lemma finite_fin q : finite (VFloat (XFin q)).
Proof. unfold finite; cbn; auto. Qed.
Lemma finite_nan : ~ finite (VFloat XNan).
Proof. unfold finite; cbn; intuition discriminate. Qed.
Lemma finite_inf n : ~ finite (VFloat (XInf n)).
Proof. unfold finite; destruct n; cbn; intuition discriminate. Qed.

Lemma sign_pos q : (zero < q)%Qc <-> sign q = Gt.
Proof. unfold sign, zero; split; intros H; apply Qcgt_alt; exact H. Qed.
Lemma sign_neg q : (q < zero)%Qc <-> sign q = Lt.
Proof. unfold sign, zero; split; intros H; apply Qclt_alt; exact H. Qed.
Lemma sign_zero q : q = zero <-> sign q = Eq.
Proof. unfold sign, zero; split; intros H; apply Qceq_alt; exact H. Qed.

Ltac known :=
  repeat match goal with
  | |- context [finite (VFloat (XFin ?q))] =>
      setoid_replace (finite (VFloat (XFin q))) with True using relation iff
        by (split; [constructor | intros _; apply finite_fin])
  | |- context [finite (VFloat XNan)] =>
      setoid_replace (finite (VFloat XNan)) with False using relation iff
        by (split; [apply finite_nan | intros []])
  | |- context [finite (VFloat (XInf ?n))] =>
      setoid_replace (finite (VFloat (XInf n))) with False using relation iff
        by (split; [apply finite_inf | intros []])
  end.

Ltac on_numbers :=
  unfold canon;
  repeat match goal with
  | |- context [num_of ?v] => let a := fresh "a" in generalize (num_of v); intros a
  end.
Ltac cases_num :=
  repeat match goal with a : xval |- _ => destruct a as [|[]|?] end.

Ltac canonize self other :=
  rewrite ?(canon_nan self), ?(canon_nan other), ?(canon_inf self), ?(canon_inf other),
    ?(canon_unbox self), ?(canon_unbox other), ?(canon_finite self), ?(canon_finite other).

Ltac close :=
  cbn [is_nan is_inf unbox Bool.eqb negb];
  rewrite ?sign_pos, ?sign_neg, ?sign_zero;
  unfold box_nan, box_inf, box;
  intuition (try discriminate; try congruence).

Lemma add_right self other r :
  add_post self other r <-> r = VFloat (x_add (num_of self) (num_of other)).
Proof.
  unfold add_post; canonize self other; on_numbers; cases_num; known; cbn; close.
Qed.
Lemma radd_right self other r :
  radd_post self other r <-> r = VFloat (x_add (num_of other) (num_of self)).
Proof.
  unfold radd_post; canonize self other; on_numbers; cases_num; known; cbn; close.
Qed.
Lemma sub_right self other r :
  sub_post self other r <-> r = VFloat (x_sub (num_of self) (num_of other)).
Proof.
  unfold sub_post, x_sub; canonize self other; on_numbers; cases_num; known; cbn; close.
Qed.
Lemma rsub_right self other r :
  rsub_post self other r <-> r = VFloat (x_sub (num_of other) (num_of self)).
Proof.
  unfold rsub_post, x_sub; canonize self other; on_numbers; cases_num; known; cbn; close.
Qed.

Ltac signs :=
  unfold signed_inf;
  repeat match goal with
  | |- context [sign ?q] => let E := fresh "E" in destruct (sign q) eqn:E
  end.
Ltac close_signs :=
  cbn [is_nan is_inf unbox Bool.eqb negb x_mul x_div];
  rewrite ?sign_pos, ?sign_neg, ?sign_zero; signs;
  unfold box_nan, box_inf, box; cbn; intuition (try discriminate; try congruence).

Lemma mul_right self other r :
  mul_post self other r <-> r = VFloat (x_mul (num_of self) (num_of other)).
Proof.
  unfold mul_post; canonize self other; on_numbers; cases_num; known; close_signs.
Qed.
Lemma rmul_right self other r :
  rmul_post self other r <-> r = VFloat (x_mul (num_of other) (num_of self)).
Proof.
  unfold rmul_post; canonize self other; on_numbers; cases_num; known; close_signs.
Qed.

Lemma div_right self other r : truediv_pre self other ->
  (truediv_post self other r <-> r = VFloat (x_div (num_of self) (num_of other))).
Proof.
  unfold truediv_pre, truediv_post; canonize self other; on_numbers; cases_num; known;
    close_signs.
Qed.
Lemma rdiv_right self other r : rtruediv_pre self other ->
  (rtruediv_post self other r <-> r = VFloat (x_div (num_of other) (num_of self))).
Proof.
  unfold rtruediv_pre, rtruediv_post; canonize self other; on_numbers; cases_num; known;
    close_signs.
Qed.
Lemma div_pre_iff self other :
  truediv_pre self other <-> num_of other <> XFin (Q2Qc 0).
Proof.
  unfold truediv_pre; canonize self other; on_numbers; cases_num; known;
    try (cbn; intuition discriminate).
  cbn; unfold zero; split; [intros H E; injection E as E; apply (H I E) | intros H _ E; congruence].
Qed.
Lemma neg_right self r : neg_post self r <-> r = VFloat (x_neg (num_of self)).
Proof.
  unfold neg_post; canonize self self; on_numbers; cases_num; known; cbn; close.
Qed.

Lemma bool_right self r : bool_post self r <-> (r = true <-> x_true (num_of self)).
Proof.
  unfold bool_post, x_true; canonize self self; on_numbers; cases_num; known; cbn;
    destruct r; unfold zero; intuition (try discriminate; try congruence).
Qed.
Lemma eq_fin p q : (XFin p <> XNan /\ XFin p = XFin q) <-> p = q.
Proof. split; [intros [_ H]; congruence | intros ->; split; [discriminate|reflexivity]]. Qed.
Lemma eq_right self other r :
  eq_post self other r <-> (r = true <-> x_eq (num_of self) (num_of other)).
Proof.
  unfold eq_post, x_eq; canonize self other; on_numbers; cases_num; known; rewrite ?eq_fin;
    cbn; destruct r; intuition (try discriminate; try congruence).
Qed.

Lemma le_fin p q : x_le (XFin p) (XFin q) <-> (p <= q)%Qc.
Proof.
  unfold x_le, x_eq; cbn; split.
  - intros [H|[_ H]]; [now apply Qclt_le_weak | injection H as ->; apply Qcle_refl].
  - intros H; destruct (Qcle_lt_or_eq _ _ H) as [K| ->]; [now left|right].
    split; [discriminate|reflexivity].
Qed.
Lemma le_inf a b : x_le a b <->
  match a, b with XFin p, XFin q => (p <= q)%Qc | XNan, _ | _, XNan => False
  | XInf true, _ => True | _, XInf true => False | XInf false, XInf false => True
  | XInf false, _ => False | _, XInf false => True end.
Proof.
  cases_num; try apply le_fin; unfold x_le, x_eq; cbn; intuition (try discriminate; try congruence).
Qed.

Ltac compare :=
  on_numbers; cases_num; known;
  let K := fresh in intros K;
  try (exfalso; apply K; unfold clash; eauto; fail);
  rewrite ?le_inf; cbn; match goal with r : bool |- _ => destruct r end;
  intuition (try discriminate; try congruence).

Lemma ge_right self other r : ~ clash (num_of self) (num_of other) ->
  (ge_post self other r <-> (r = true <-> x_le (num_of other) (num_of self))).
Proof. unfold ge_post; canonize self other; compare. Qed.
Lemma gt_right self other r : ~ clash (num_of self) (num_of other) ->
  (gt_post self other r <-> (r = true <-> x_lt (num_of other) (num_of self))).
Proof. unfold gt_post; canonize self other; compare. Qed.
Lemma le_right self other r : ~ clash (num_of other) (num_of self) ->
  (le_post self other r <-> (r = true <-> x_le (num_of self) (num_of other))).
Proof. unfold le_post; canonize self other; compare. Qed.
Lemma lt_right self other r : ~ clash (num_of other) (num_of self) ->
  (lt_post self other r <-> (r = true <-> x_lt (num_of self) (num_of other))).
Proof. unfold lt_post; canonize self other; compare. Qed.

Ltac clashes :=
  on_numbers; cases_num; intros [[A B]|[A B]]; try discriminate;
  cbn; intuition congruence.
Lemma ge_clash self other r : clash (num_of self) (num_of other) -> ~ ge_post self other r.
Proof. unfold ge_post; canonize self other; clashes. Qed.
Lemma gt_clash self other r : clash (num_of self) (num_of other) -> ~ gt_post self other r.
Proof. unfold gt_post; canonize self other; clashes. Qed.
Lemma le_clash self other r : clash (num_of other) (num_of self) -> ~ le_post self other r.
Proof. unfold le_post; canonize self other; clashes. Qed.
Lemma lt_clash self other r : clash (num_of other) (num_of self) -> ~ lt_post self other r.
Proof. unfold lt_post; canonize self other; clashes. Qed.

(* Mixed comparisons of the class int. *)
Lemma num_of_int v : is_int v = true -> num_of v = XFin (Q2Qc (inject_Z (int_of v))).
Proof. destruct v as [x|z|[]]; [discriminate|reflexivity..]. Qed.
Lemma inject_eq a b : Q2Qc (inject_Z a) = Q2Qc (inject_Z b) <-> a = b.
Proof.
  rewrite Q2Qc_eq_iff; split; [apply inject_Z_injective | intros ->; reflexivity].
Qed.
Lemma inject_le a b : (Q2Qc (inject_Z a) <= Q2Qc (inject_Z b))%Qc <-> a <= b.
Proof. unfold Qcle, Q2Qc; cbn [this]; rewrite !Qred_correct, <- Zle_Qle; reflexivity. Qed.
Lemma inject_lt a b : (Q2Qc (inject_Z a) < Q2Qc (inject_Z b))%Qc <-> a < b.
Proof. unfold Qclt, Q2Qc; cbn [this]; rewrite !Qred_correct, <- Zlt_Qlt; reflexivity. Qed.

Lemma int_eq_right self other r : is_int self = true ->
  (int_eq_post self other r <-> (r = true <-> x_eq (num_of self) (num_of other))).
Proof.
  intros Hs; unfold int_eq_post; rewrite eq_right; split; [intros [_ H]; exact H|].
  intros H; split; [|exact H]; intros Ho; rewrite H, !num_of_int by assumption.
  unfold x_eq; rewrite eq_fin, inject_eq; reflexivity.
Qed.
Lemma int_ge_right self other r : is_int self = true ->
  (int_ge_post self other r <-> (r = true <-> x_le (num_of other) (num_of self))).
Proof.
  intros Hs; unfold int_ge_post; destruct (is_int other) eqn:Ho.
  - rewrite !num_of_int, le_fin, inject_le by assumption.
    destruct r; destruct (Z.leb_spec (int_of other) (int_of self)); intuition (try lia; try discriminate).
  - apply ge_right; rewrite (num_of_int self) by assumption; unfold clash; intuition discriminate.
Qed.
Lemma int_lt_right self other r : is_int self = true ->
  (int_lt_post self other r <-> (r = true <-> x_lt (num_of self) (num_of other))).
Proof.
  intros Hs; unfold int_lt_post; destruct (is_int other) eqn:Ho.
  - rewrite !num_of_int by assumption; cbn [x_lt]; rewrite inject_lt.
    destruct r; destruct (Z.ltb_spec (int_of self) (int_of other)); intuition (try lia; try discriminate).
  - apply lt_right; rewrite (num_of_int self) by assumption; unfold clash; intuition discriminate.
Qed.

(* int(): rounding down and cutting off agree on non-negative numbers and on whole numbers. *)
Lemma floor_truncate (q : Qc) :
  Qfloor q = truncate q <-> (0 <= q)%Qc \/ Qden q = 1%positive.
Proof.
  unfold truncate, Qcle; destruct q as [[n d] c]; cbn -[Z.quot Z.div].
  unfold Qle; cbn -[Z.quot Z.div]; rewrite Z.mul_1_r.
  destruct (Z_le_gt_dec 0 n) as [Hn|Hn].
  { rewrite Z.quot_div_nonneg by lia; intuition. }
  assert (E : Z.quot n (Zpos d) = - ((- n) / Zpos d)).
  { rewrite <- (Z.opp_involutive n) at 1; rewrite Z.quot_opp_l, Z.quot_div_nonneg by lia; reflexivity. }
  rewrite E; clear E; split.
  - intros E; right; pose proof (Z.div_mod n (Zpos d) ltac:(lia)).
    pose proof (Z.mod_pos_bound n (Zpos d) ltac:(lia)).
    pose proof (Z.div_mod (-n) (Zpos d) ltac:(lia)).
    pose proof (Z.mod_pos_bound (-n) (Zpos d) ltac:(lia)).
    assert (Hm : n mod Zpos d = 0) by nia.
    assert (D : (Zpos d | n)) by (apply Z.mod_divide; [lia|exact Hm]).
    pose proof (Z.ggcd_gcd n (Zpos d)) as G.
    pose proof (Z.ggcd_correct_divisors n (Zpos d)) as V.
    cbn [this] in c; unfold Qred in c.
    destruct (Z.ggcd n (Zpos d)) as [g [a b]]; cbn in G.
    injection c as E1 E2; destruct V as [_ V].
    apply Z.divide_gcd_iff in D; [|lia]; rewrite Z.gcd_comm in D; rewrite D in G; subst g.
    assert (b = 1) by nia; subst b; cbn in E2; congruence.
  - intros [K|K]; [lia|]; cbn in K; subst d; rewrite !Z.div_1_r; lia.
Qed.
Lemma real_int_right self q : num_of self = XFin q ->
  (real_int self = truncate q <-> (0 <= q)%Qc \/ Qden q = 1%positive).
Proof.
  intros H; unfold real_int; rewrite canon_unbox; unfold canon; rewrite H; cbn [unbox].
  apply floor_truncate.
Qed.

(* ------------------------------------------------------------------------------------ *)
(* Binary floats. *)

Lemma pow2_power e : pow2 e == Qpower 2 e.
Proof.
  unfold pow2; destruct (Z.leb_spec 0 e) as [H|H].
  - change (2%Q) with (inject_Z 2); rewrite <- Zpower_Qpower by assumption; reflexivity.
  - replace e with (- (- e)) at 2 by lia; rewrite Qpower_opp.
    change (2%Q) with (inject_Z 2); rewrite <- Zpower_Qpower by lia.
    assert (0 < 2 ^ (- e)) by (apply Z.pow_pos_nonneg; lia).
    destruct (2 ^ (- e)) as [|p|p]; try lia; reflexivity.
Qed.
Lemma exact_number s m e : XFin (exact s m e) = number (S754_finite s m e).
Proof.
  unfold number, exact, Qcmult; f_equal; apply Q2Qc_eq_iff; cbn [this].
  unfold Q2Qc; cbn [this]; rewrite !Qred_correct, pow2_power; destruct s; reflexivity.
Qed.
Lemma literal_number lit : num_of (real_literal lit) = number lit.
Proof. destruct lit; try reflexivity; apply exact_number. Qed.

Definition zval (s : bool) (m : positive) : Z := if s then Zneg m else Zpos m.
Lemma pow_pos e : (0 < Qpower 2 e)%Q.
Proof. apply Qpower_0_lt; reflexivity. Qed.
Lemma pow_split e1 e2 : e1 <= e2 -> Qpower 2 e2 == inject_Z (2 ^ (e2 - e1)) * Qpower 2 e1.
Proof.
  intros H; change (2%Q) with (inject_Z 2); rewrite Zpower_Qpower by lia.
  rewrite <- Qpower_plus by discriminate; replace (e2 - e1 + e1) with e2 by lia; reflexivity.
Qed.
Lemma lt_scaled a b e1 e2 : e1 <= e2 ->
  ((inject_Z a * Qpower 2 e1 < inject_Z b * Qpower 2 e2)%Q <-> a < b * 2 ^ (e2 - e1)).
Proof.
  intros H; rewrite (pow_split e1 e2 H), Qmult_assoc, <- inject_Z_mult.
  rewrite Qmult_lt_r by apply pow_pos; rewrite <- Zlt_Qlt; reflexivity.
Qed.
Definition qval (s : bool) (m : positive) (e : Z) : Q := (inject_Z (zval s m) * Qpower 2 e)%Q.
Lemma number_finite s m e : number (S754_finite s m e) = XFin (Q2Qc (qval s m e)).
Proof.
  unfold number, qval, Qcmult, Q2Qc at 1; f_equal; apply Q2Qc_eq_iff; unfold Q2Qc; cbn [this].
  rewrite !Qred_correct; destruct s; reflexivity.
Qed.

Lemma digits_bounds m :
  2 ^ (Zpos (digits2_pos m) - 1) <= Zpos m < 2 ^ Zpos (digits2_pos m).
Proof.
  induction m as [m IH|m IH|]; cbn [digits2_pos]; [| |cbn; lia];
    rewrite Pos2Z.inj_succ; unfold Z.succ;
    replace (Zpos (digits2_pos m) + 1 - 1) with (Zpos (digits2_pos m) - 1 + 1) by lia;
    rewrite !Z.pow_add_r by lia; cbn [Z.pow]; lia.
Qed.

(* What it means to be a valid float. *)
Lemma valid_finite prec emax s m e : 0 < prec -> valid_binary prec emax (S754_finite s m e) = true ->
  emin prec emax <= e /\ e <= emax - prec /\ Zpos m < 2 ^ prec /\
  (emin prec emax < e -> 2 ^ (prec - 1) <= Zpos m).
Proof.
  intros Hp H; cbn in H; unfold bounded, canonical_mantissa in H.
  apply andb_true_iff in H; destruct H as [H1 H2]; apply Zeq_bool_eq in H1.
  apply Z.leb_le in H2; unfold fexp in H1; pose proof (digits_bounds m) as D.
  split; [lia|]; split; [lia|]; split.
  - assert (Zpos (digits2_pos m) <= prec) by lia.
    apply Z.lt_le_trans with (2 ^ Zpos (digits2_pos m)); [lia|]; apply Z.pow_le_mono_r; lia.
  - intros K; assert (E : Zpos (digits2_pos m) = prec) by lia; rewrite <- E; lia.
Qed.

Lemma valid_below prec emax s1 m1 e1 s2 m2 e2 : 0 < prec ->
  valid_binary prec emax (S754_finite s1 m1 e1) = true ->
  valid_binary prec emax (S754_finite s2 m2 e2) = true ->
  e1 < e2 -> Zpos m1 < Zpos m2 * 2 ^ (e2 - e1).
Proof.
  intros Hp V1 V2 L; apply valid_finite in V1; [|lia]; apply valid_finite in V2; [|lia].
  destruct V1 as (A1 & _ & B1 & _); destruct V2 as (A2 & _ & B2 & C2).
  specialize (C2 ltac:(lia)).
  assert (P : 2 ^ prec = 2 ^ (prec - 1) * 2)
    by (rewrite <- (Z.pow_1_r 2) at 3; rewrite <- Z.pow_add_r by lia; f_equal; lia).
  assert (Q : 2 <= 2 ^ (e2 - e1)).
  { change 2 with (2 ^ 1) at 1; apply Z.pow_le_mono_r; lia. }
  nia.
Qed.

(* Comparison of valid floats is comparison of the numbers. *)
Definition compare_is (a b : Q) (c : comparison) : Prop :=
  match c with Lt => (a < b)%Q | Eq => a == b | Gt => (b < a)%Q end.

Lemma qval_neg s m e : qval (negb s) m e == - qval s m e.
Proof.
  unfold qval.
  assert (E : inject_Z (zval (negb s) m) == - inject_Z (zval s m)) by (destruct s; reflexivity).
  rewrite E; ring.
Qed.

Lemma compare_pos prec emax m1 e1 m2 e2 : 0 < prec ->
  bounded prec emax m1 e1 = true -> bounded prec emax m2 e2 = true ->
  compare_is (qval false m1 e1) (qval false m2 e2)
    (match Z.compare e1 e2 with Lt => Lt | Gt => Gt | Eq => Pos.compare m1 m2 end).
Proof.
  intros Hp V1 V2; unfold qval; cbn [zval]; destruct (Z.compare_spec e1 e2) as [E|L|L].
  - subst e2; destruct (Pos.compare_spec m1 m2) as [E|L|L]; cbn.
    + subst; reflexivity.
    + apply Qmult_lt_r; [apply pow_pos|]; rewrite <- Zlt_Qlt; lia.
    + apply Qmult_lt_r; [apply pow_pos|]; rewrite <- Zlt_Qlt; lia.
  - cbn; apply lt_scaled; [lia|]; exact (valid_below prec emax false m1 e1 false m2 e2 Hp V1 V2 L).
  - cbn; apply lt_scaled; [lia|].
    exact (valid_below prec emax false m2 e2 false m1 e1 Hp V2 V1 L).
Qed.

Lemma compare_finite prec emax s1 m1 e1 s2 m2 e2 : 0 < prec ->
  valid_binary prec emax (S754_finite s1 m1 e1) = true ->
  valid_binary prec emax (S754_finite s2 m2 e2) = true ->
  exists c, SFcompare (S754_finite s1 m1 e1) (S754_finite s2 m2 e2) = Some c /\
            compare_is (qval s1 m1 e1) (qval s2 m2 e2) c.
Proof.
  intros Hp V1 V2; eexists; split; [reflexivity|].
  assert (Pos : forall m e, (0 < qval false m e)%Q).
  { intros m e; unfold qval; cbn [zval]; rewrite <- (Qmult_0_l (Qpower 2 e)).
    apply Qmult_lt_r; [apply pow_pos|]; reflexivity. }
  assert (Neg : forall m e, (qval true m e < 0)%Q).
  { intros m e; change true with (negb false); rewrite qval_neg.
    apply Qopp_lt_compat with (q := qval false m e) (p := 0%Q); apply Pos. }
  destruct s1, s2.
  - pose proof (compare_pos prec emax m1 e1 m2 e2 Hp V1 V2) as C.
    assert (E1 := qval_neg false m1 e1); assert (E2 := qval_neg false m2 e2); cbn [negb] in E1, E2.
    destruct (Z.compare e1 e2); cbn [compare_is] in *.
    + change (Pos.compare_cont Eq m1 m2) with (Pos.compare m1 m2).
      destruct (Pos.compare m1 m2); cbn [compare_is CompOpp] in *; rewrite E1, E2.
      * rewrite C; reflexivity.
      * apply Qopp_lt_compat; exact C.
      * apply Qopp_lt_compat; exact C.
    + rewrite E1, E2; apply Qopp_lt_compat; exact C.
    + rewrite E1, E2; apply Qopp_lt_compat; exact C.
  - apply Qlt_trans with 0%Q; [apply Neg|apply Pos].
  - apply Qlt_trans with 0%Q; [apply Neg|apply Pos].
  - exact (compare_pos prec emax m1 e1 m2 e2 Hp V1 V2).
Qed.

Lemma lt_q a b : (Q2Qc a < Q2Qc b)%Qc <-> (a < b)%Q.
Proof. unfold Qclt, Q2Qc; cbn [this]; rewrite !Qred_correct; reflexivity. Qed.

Definition x_compare (a b : xval) (c : option comparison) : Prop :=
  match c with
  | None => a = XNan \/ b = XNan
  | Some Lt => x_lt a b
  | Some Eq => x_eq a b
  | Some Gt => x_lt b a
  end.
Lemma compare_number prec emax f g : 0 < prec ->
  valid_binary prec emax f = true -> valid_binary prec emax g = true ->
  x_compare (number f) (number g) (SFcompare f g).
Proof.
  intros Hp V1 V2.
  assert (Pos : forall m e, (0 < qval false m e)%Q).
  { intros m e; unfold qval; cbn [zval]; rewrite <- (Qmult_0_l (Qpower 2 e)).
    apply Qmult_lt_r; [apply pow_pos|]; reflexivity. }
  assert (Neg : forall m e, (qval true m e < 0)%Q).
  { intros m e; change true with (negb false); rewrite qval_neg.
    apply Qopp_lt_compat with (q := qval false m e) (p := 0%Q); apply Pos. }
  destruct f as [s1|s1| |s1 m1 e1], g as [s2|s2| |s2 m2 e2]; rewrite ?number_finite;
    try (destruct s1); try (destruct s2);
    try (cbn; unfold x_eq; intuition (try discriminate); fail);
    try (cbn; apply lt_q; apply Pos); try (cbn; apply lt_q; apply Neg).
  all: match goal with |- x_compare _ _ (SFcompare (S754_finite ?a ?b ?c) (S754_finite ?d ?e ?f)) =>
    destruct (compare_finite prec emax a b c d e f Hp V1 V2) as (k & -> & C) end;
    destruct k; cbn [compare_is x_compare x_lt] in *;
    [split; [discriminate|]; f_equal; apply Q2Qc_eq_iff; exact C | apply lt_q; exact C ..].
Qed.

Lemma lt_irrefl a b : x_lt a b -> x_eq a b -> False.
Proof.
  intros H [N E]; subst b; destruct a as [|[]|q]; cbn in H; auto; exact (Qclt_not_eq _ _ H eq_refl).
Qed.
Lemma lt_asym a b : x_lt a b -> x_lt b a -> False.
Proof.
  destruct a as [|[]|p], b as [|[]|q]; cbn; auto; intros A B.
  exact (Qclt_not_eq _ _ (Qclt_trans _ _ _ A B) eq_refl).
Qed.
Lemma x_eq_sym a b : x_eq a b -> x_eq b a.
Proof. unfold x_eq; intros [N ->]; auto. Qed.
Lemma lt_nan a b : a = XNan \/ b = XNan -> ~ x_lt a b /\ ~ x_eq a b /\ ~ x_lt b a.
Proof.
  intros [-> | ->]; unfold x_eq; [destruct b as [|[]|]|destruct a as [|[]|]]; cbn;
    intuition (try discriminate; try congruence).
Qed.

Lemma compare_ops prec emax f g : 0 < prec ->
  valid_binary prec emax f = true -> valid_binary prec emax g = true ->
  (SFltb f g = true <-> x_lt (number f) (number g)) /\
  (SFleb f g = true <-> x_le (number f) (number g)) /\
  (SFeqb f g = true <-> x_eq (number f) (number g)).
Proof.
  intros Hp V1 V2; pose proof (compare_number prec emax f g Hp V1 V2) as C.
  unfold SFltb, SFleb, SFeqb, x_le; pose proof (lt_irrefl (number f) (number g)).
  pose proof (lt_irrefl (number g) (number f)); pose proof (lt_asym (number f) (number g)).
  pose proof (x_eq_sym (number f) (number g)).
  destruct (SFcompare f g) as [[]|]; cbn in C;
    [intuition (try discriminate) .. | apply lt_nan in C; intuition discriminate].
Qed.

(* Whole numbers of at most 24 digits are exact. *)
Lemma round_canonical s m e :
  bounded prec32 emax32 m e = true ->
  binary_round_aux prec32 emax32 s (Zpos m) e loc_Exact = S754_finite s m e.
Proof.
  unfold bounded, canonical_mantissa; intros H; apply andb_true_iff in H; destruct H as [H1 H2].
  apply Zeq_bool_eq in H1; unfold binary_round_aux, shr_fexp; cbn [Zdigits2].
  rewrite H1, Z.sub_diag.
  cbn [shr shr_record_of_loc shr_m loc_of_shr_record round_nearest_even Zdigits2].
  rewrite H1, Z.sub_diag; cbn [shr shr_record_of_loc shr_m].
  rewrite H2; reflexivity.
Qed.

Lemma digits_shift k m : digits2_pos (shift_pos k m) = (k + digits2_pos m)%positive.
Proof.
  unfold shift_pos; induction k as [|k IH] using Pos.peano_ind.
  - rewrite Pos.add_1_l; reflexivity.
  - rewrite Pos.iter_succ; cbn [digits2_pos]; rewrite IH, Pos.add_succ_l; reflexivity.
Qed.

Lemma digits_small m : Zpos m < 2 ^ 24 -> Zpos (digits2_pos m) <= 24.
Proof.
  intros H; pose proof (digits_bounds m) as [D _].
  assert (2 ^ (Zpos (digits2_pos m) - 1) < 2 ^ 24) by lia.
  apply Z.pow_lt_mono_r_iff in H0; lia.
Qed.

Lemma shift_value k m : Zpos (shift_pos k m) = Zpos m * 2 ^ Zpos k.
Proof. rewrite shift_pos_correct, Z.mul_comm; reflexivity. Qed.

Lemma round_small s m : Zpos m < 2 ^ 24 -> exists m' e',
  binary_round prec32 emax32 s m 0 = S754_finite s m' e' /\
  bounded prec32 emax32 m' e' = true /\ qval s m' e' == inject_Z (zval s m).
Proof.
  intros H; apply digits_small in H; unfold binary_round, shl_align.
  assert (F : fexp prec32 emax32 (Zpos (digits2_pos m) + 0) = Zpos (digits2_pos m) - 24).
  { unfold fexp, emin, prec32, emax32; lia. }
  rewrite F, Z.sub_0_r.
  destruct (Z.eq_dec (Zpos (digits2_pos m)) 24) as [E|E].
  - rewrite E; change (24 - 24) with 0; exists m, 0; cbv beta iota zeta.
    assert (B : bounded prec32 emax32 m 0 = true).
    { unfold bounded, canonical_mantissa; rewrite E; reflexivity. }
    rewrite round_canonical by exact B; split; [reflexivity|]; split; [exact B|].
    unfold qval; cbn; rewrite Qmult_1_r; reflexivity.
  - destruct (Zpos (digits2_pos m) - 24) as [|p|p] eqn:K; try lia.
    cbv beta iota zeta.
    assert (D : Zpos (digits2_pos (shift_pos p m)) = 24) by (rewrite digits_shift; lia).
    assert (B : bounded prec32 emax32 (shift_pos p m) (Zneg p) = true).
    { unfold bounded, canonical_mantissa; rewrite D; apply andb_true_iff; split.
      - apply Zeq_is_eq_bool; unfold fexp, emin, prec32, emax32; lia.
      - apply Z.leb_le; unfold emax32, prec32; lia. }
    exists (shift_pos p m), (Zneg p); rewrite round_canonical by exact B.
    split; [reflexivity|]; split; [exact B|].
    unfold qval; rewrite <- (Qmult_1_r (inject_Z (zval s m))).
    change 1%Q with (Qpower 2 0); rewrite (pow_split (Zneg p) 0) by lia.
    rewrite Qmult_assoc, <- inject_Z_mult; apply Qmult_comp; [|reflexivity].
    change (0 - Zneg p) with (Zpos p).
    assert (V := shift_value p m); destruct s; cbn [zval]; [|rewrite V; reflexivity].
    rewrite <- !Pos2Z.opp_pos, V, Z.mul_opp_l; reflexivity.
Qed.

Lemma from_small z : small z ->
  single (from_int32 z) /\ number (from_int32 z) = XFin (Q2Qc (inject_Z z)).
Proof.
  unfold small, from_int32, single; intros H.
  destruct (Z.eq_dec (Z.abs z) (2 ^ 24)) as [E|E].
  - assert (K : z = 2 ^ 24 \/ z = - 2 ^ 24) by lia; destruct K as [-> | ->]; split; try reflexivity;
      cbn -[Q2Qc]; f_equal; apply Q2Qc_eq_iff; reflexivity.
  - destruct z as [|p|p]; cbn [binary_normalize].
    + split; reflexivity.
    + destruct (round_small false p ltac:(lia)) as (m & e & -> & B & V); split; [exact B|].
      rewrite number_finite; f_equal; apply Q2Qc_eq_iff; exact V.
    + destruct (round_small true p ltac:(lia)) as (m & e & -> & B & V); split; [exact B|].
      rewrite number_finite; f_equal; apply Q2Qc_eq_iff; exact V.
Qed.

Lemma unbox_number v : single_object v -> small_object v ->
  single (unbox32 v) /\ number (unbox32 v) = number32 v.
Proof.
  destruct v as [f|z|b]; cbn [single_object small_object unbox32 number32 int_of]; intros S H.
  - auto.
  - apply from_small; exact H.
  - apply from_small; unfold small; destruct b; cbn; lia.
Qed.

Lemma compare32 v w :
  single_object v -> small_object v -> single_object w -> small_object w ->
  (lt32 v w = true <-> x_lt (number32 v) (number32 w)) /\
  (le32 v w = true <-> x_le (number32 v) (number32 w)) /\
  (gt32 v w = true <-> x_lt (number32 w) (number32 v)) /\
  (ge32 v w = true <-> x_le (number32 w) (number32 v)) /\
  (eq32 v w = true <-> x_eq (number32 v) (number32 w)).
Proof.
  intros S1 M1 S2 M2; destruct (unbox_number v S1 M1) as [V1 N1].
  destruct (unbox_number w S2 M2) as [V2 N2].
  destruct (compare_ops 24 128 _ _ ltac:(lia) V1 V2) as (A & B & C).
  destruct (compare_ops 24 128 _ _ ltac:(lia) V2 V1) as (A' & B' & C').
  unfold lt32, le32, gt32, ge32, eq32; rewrite N1, N2 in *; auto.
Qed.

(* Truth value: zero only has one of its two representations in the contract. *)
Lemma number_zero f : single f ->
  (number f = XFin (Q2Qc 0) <-> exists s, f = S754_zero s).
Proof.
  intros S; split; [|intros [s ->]; reflexivity].
  destruct f as [s|s| |s m e]; try discriminate; [eauto|]; rewrite number_finite.
  intros H; exfalso.
  assert (K : Q2Qc (qval s m e) = Q2Qc 0) by congruence; clear H; rename K into H.
  apply Q2Qc_eq_iff in H.
  unfold qval in H; apply Qmult_integral in H; destruct H as [H|H].
  - destruct s; discriminate H.
  - exact (Qlt_not_eq _ _ (pow_pos e) (Qeq_sym _ _ H)).
Qed.
Lemma bool32_iff v : single_object v -> small_object v ->
  (bool32 v <-> unbox32 v = S754_zero true \/ x_true (number32 v)).
Proof.
  intros S M; destruct (unbox_number v S M) as [V N]; unfold bool32, x_true; rewrite <- N.
  change zero32 with (S754_zero false); split.
  - intros H; destruct (unbox32 v) as [[]|s| |s m e]; auto; right; rewrite number_zero by exact V;
      intros [t K]; congruence.
  - intros [H|H]; [rewrite H; discriminate|]; intros K; apply H; rewrite K; reflexivity.
Qed.

(* Bit patterns. *)
Lemma single_cases s m e : single (S754_finite s m e) ->
  (Zpos m < 2 ^ 23 /\ e = -149) \/ (2 ^ 23 <= Zpos m < 2 ^ 24 /\ -149 <= e <= 104).
Proof.
  intros V; apply valid_finite in V; [|lia]; unfold emin in V.
  destruct V as (A & B & C & D); destruct (Z_lt_le_dec (Zpos m) (2 ^ 23)) as [L|L].
  - left; split; [exact L|]; destruct (Z.eq_dec e (-149)); [assumption|].
    specialize (D ltac:(lia)); change (24 - 1) with 23 in D; lia.
  - right; lia.
Qed.

Lemma decode_parts (s : bool) ex fr : 0 <= ex < 2 ^ 8 -> 0 <= fr < 2 ^ 23 ->
  let i := (if s then 2 ^ 31 else 0) + ex * 2 ^ 23 + fr in
  to_bv32 i = i /\ Z.odd (i / 2 ^ 31) = s /\ (i / 2 ^ 23) mod 2 ^ 8 = ex /\ i mod 2 ^ 23 = fr.
Proof.
  intros H1 H2; cbv zeta.
  set (b := if s then 1 else 0); assert (Hb : 0 <= b <= 1) by (destruct s; cbn; lia).
  assert (E : (if s then 2 ^ 31 else 0) = b * 2 ^ 31) by (destruct s; reflexivity); rewrite E.
  split; [unfold to_bv32; apply Z.mod_small; lia|].
  split.
  - replace (b * 2 ^ 31 + ex * 2 ^ 23 + fr) with (b * 2 ^ 31 + (ex * 2 ^ 23 + fr)) by lia.
    rewrite Z.div_add_l by lia; rewrite Z.div_small by lia; destruct s; reflexivity.
  - split.
    + replace (b * 2 ^ 31 + ex * 2 ^ 23 + fr) with ((b * 2 ^ 8 + ex) * 2 ^ 23 + fr) by lia.
      rewrite Z.div_add_l by lia; rewrite (Z.div_small fr) by lia; rewrite Z.add_0_r.
      rewrite Z.add_comm, Z.mod_add by lia; apply Z.mod_small; lia.
    + replace (b * 2 ^ 31 + ex * 2 ^ 23 + fr) with (fr + (b * 2 ^ 8 + ex) * 2 ^ 23) by lia.
      rewrite Z.mod_add by lia; apply Z.mod_small; lia.
Qed.

Lemma decode_encode x : single x -> decode32 (to_bv32 (encode32 x)) = x.
Proof.
  intros V; destruct x as [s|s| |s m e].
  - destruct s; reflexivity.
  - destruct s; reflexivity.
  - reflexivity.
  - apply single_cases in V; unfold encode32; destruct V as [[L ->]|[L E]].
    + destruct (Z.ltb_spec (Zpos m) (2 ^ 23)) as [_|K]; [|lia].
      destruct (decode_parts s 0 (Zpos m) ltac:(lia) ltac:(lia)) as (A & B & C & D).
      replace ((if s then 2 ^ 31 else 0) + 0 * 2 ^ 23 + Zpos m)
        with ((if s then 2 ^ 31 else 0) + Zpos m) in * by lia.
      rewrite A; unfold decode32; rewrite B, C, D; reflexivity.
    + destruct (Z.ltb_spec (Zpos m) (2 ^ 23)) as [K|_]; [lia|].
      destruct (decode_parts s (e + 150) (Zpos m - 2 ^ 23) ltac:(lia) ltac:(lia)) as (A & B & C & D).
      rewrite A; unfold decode32; rewrite B, C, D.
      destruct (Z.eqb_spec (e + 150) 255) as [K|_]; [lia|].
      destruct (Z.eqb_spec (e + 150) 0) as [K|_].
      { lia. }
      replace (Zpos m - 2 ^ 23 + 2 ^ 23) with (Zpos m) by lia; f_equal; lia.
Qed.

Lemma digits_unique m k : 2 ^ (k - 1) <= Zpos m < 2 ^ k -> 0 < k -> Zpos (digits2_pos m) = k.
Proof.
  intros [A B] K; destruct (digits_bounds m) as [C D].
  assert (2 ^ (k - 1) < 2 ^ Zpos (digits2_pos m)) by lia.
  assert (2 ^ (Zpos (digits2_pos m) - 1) < 2 ^ k) by lia.
  apply Z.pow_lt_mono_r_iff in H; [|lia..]; apply Z.pow_lt_mono_r_iff in H0; lia.
Qed.
Lemma decode_single i : single (decode32 i).
Proof.
  unfold decode32; set (s := Z.odd _).
  pose proof (Z.mod_pos_bound (i / 2 ^ 23) (2 ^ 8) ltac:(lia)) as E.
  pose proof (Z.mod_pos_bound i (2 ^ 23) ltac:(lia)) as F.
  set (ex := (i / 2 ^ 23) mod 2 ^ 8) in *; set (fr := i mod 2 ^ 23) in *.
  destruct (Z.eqb_spec ex 255) as [_|N]; [destruct (fr =? 0); reflexivity|].
  destruct (Z.eqb_spec ex 0) as [_|N0].
  - destruct fr as [|m|m] eqn:K; try reflexivity.
    unfold single; cbn [valid_binary]; unfold bounded, canonical_mantissa.
    assert (Zpos (digits2_pos m) <= 24) by (apply digits_small; lia).
    apply andb_true_iff; split; [apply Zeq_is_eq_bool; unfold fexp, emin; lia|reflexivity].
  - destruct (fr + 2 ^ 23) as [|m|m] eqn:K; try reflexivity.
    unfold single; cbn [valid_binary]; unfold bounded, canonical_mantissa.
    rewrite (digits_unique m 24) by lia.
    apply andb_true_iff; split; [apply Zeq_is_eq_bool; unfold fexp, emin; lia|].
    apply Z.leb_le; lia.
Qed.

Lemma literal_right lit x : to_single lit = Some x -> single x -> literal32 lit = Some (VFloat x).
Proof.
  intros H S; unfold literal32; rewrite H; unfold create32; rewrite decode_encode by exact S; reflexivity.
Qed.

Lemma int32_right v q : single_object v -> small_object v -> number32 v = XFin q ->
  exists z, int32 v = Some z /\ (z = truncate q <-> (0 <= q)%Qc \/ Qden q = 1%positive).
Proof.
  intros S M H; destruct (unbox_number v S M) as [V N]; rewrite H in N; unfold int32.
  destruct (unbox32 v) as [s|s| |s m e]; try discriminate N.
  - exists 0; split; [reflexivity|]; injection N as <-; cbn; split; [auto|reflexivity].
  - exists (Qfloor (exact s m e)); split; [reflexivity|].
    rewrite <- exact_number in N.
    assert (E : q = exact s m e) by congruence; subst q; apply floor_truncate.
Qed.

Lemma int_eq32_clash a b r : a <> b -> from_int32 a = from_int32 b -> single (from_int32 a) ->
  from_int32 a <> S754_nan -> ~ int_eq_post32 (VInt a) (VInt b) r.
Proof.
  intros N E S F [H1 H2]; unfold eq32 in H2; cbn [unbox32 int_of] in H2; rewrite <- E in H2.
  assert (T : SFeqb (from_int32 a) (from_int32 a) = true).
  { apply (compare_ops 24 128 _ _ ltac:(lia) S S); split; [|reflexivity].
    destruct (from_int32 a); try discriminate; contradiction. }
  rewrite T in H2; subst r; apply N; apply H1; reflexivity.
Qed.
Lemma int_eq32_right v w r : is_int v = true -> small_object v -> single_object w -> small_object w ->
  (int_eq_post32 v w r <-> (r = true <-> x_eq (number32 v) (number32 w))).
Proof.
  intros Iv Mv Sw Mw; assert (Sv : single_object v) by (destruct v; [discriminate|exact Logic.I..]).
  destruct (compare32 v w Sv Mv Sw Mw) as (_ & _ & _ & _ & E); unfold int_eq_post32; split.
  - intros [_ ->]; exact E.
  - intros H; assert (r = eq32 v w) by (destruct r, (eq32 v w); intuition congruence).
    split; [|assumption]; intros Iw; rewrite H.
    assert (Ev : number32 v = XFin (Q2Qc (inject_Z (int_of v)))) by (destruct v; [discriminate|reflexivity..]).
    assert (Ew : number32 w = XFin (Q2Qc (inject_Z (int_of w)))) by (destruct w; [discriminate|reflexivity..]).
    rewrite Ev, Ew; unfold x_eq; rewrite eq_fin, inject_eq; reflexivity.
Qed.
