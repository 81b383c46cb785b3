From Coq Require Import ZArith QArith Bool Lia.
From Verif Require Import PermSpec PermModel.

Lemma same_refl p : same p p.
Proof. destruct p; cbn; [reflexivity|exact I]. Qed.

Lemma is_int_eq p q : (p == q)%Q -> is_int p = is_int q.
Proof. intros H. unfold is_int. rewrite (Qred_complete _ _ H). reflexivity. Qed.

Lemma same_op (f : Q -> Q -> Q) p p' q q' :
  (forall x x' y y', (x == x')%Q -> (y == y')%Q -> (f x y == f x' y')%Q) -> same p p' -> same q q' ->
  same (match p, q with Some x, Some y => Some (f x y) | _, _ => None end)
       (match p', q' with Some x, Some y => Some (f x y) | _, _ => None end).
Proof.
  intros H. destruct p, p', q, q'; cbn; try contradiction; auto.
Qed.
Lemma same_div p p' q q' : same p p' -> same q q' ->
  same (match p, q with Some x, Some y => if Qeq_bool y 0 then None else Some (x / y)%Q | _, _ => None end)
       (match p', q' with Some x, Some y => if Qeq_bool y 0 then None else Some (x / y)%Q | _, _ => None end).
Proof.
  destruct p as [x|], p' as [x'|], q as [y|], q' as [y'|]; cbn; try contradiction; auto. intros H1 H2.
  replace (Qeq_bool y' 0) with (Qeq_bool y 0).
  - destruct (Qeq_bool y 0); cbn; [exact I|]. rewrite H1, H2. reflexivity.
  - destruct (Qeq_bool y 0) eqn:A, (Qeq_bool y' 0) eqn:B; auto; exfalso.
    + apply Qeq_bool_iff in A. rewrite H2 in A. apply Qeq_bool_iff in A. congruence.
    + apply Qeq_bool_iff in B. rewrite <- H2 in B. apply Qeq_bool_iff in B. congruence.
Qed.

Lemma plus_eq x x' y y' : (x == x')%Q -> (y == y')%Q -> (x + y == x' + y')%Q. Proof. intros -> ->. reflexivity. Qed.
Lemma minus_eq x x' y y' : (x == x')%Q -> (y == y')%Q -> (x - y == x' - y')%Q. Proof. intros -> ->. reflexivity. Qed.
Lemma mult_eq x x' y y' : (x == x')%Q -> (y == y')%Q -> (x * y == x' * y')%Q. Proof. intros -> ->. reflexivity. Qed.

Lemma tr_int_ok r pl a : forall v, tr_int a = Some v -> same (veval r v) (denotes r pl a).
Proof.
  induction a as [z|x|t|o a IHa b IHb|a IHa| |a IHa|t| ]; intros v E; cbn [tr_int] in E; try discriminate;
    try (injection E as <-; apply same_refl).
  - destruct (tr_int a) as [x|]; [|discriminate]. destruct (tr_int b) as [y|]; [|discriminate].
    specialize (IHa _ eq_refl). specialize (IHb _ eq_refl).
    destruct o; try discriminate; injection E as <-; cbn [veval denotes].
    + exact (same_op Qplus _ _ _ _ plus_eq IHa IHb).
    + exact (same_op Qminus _ _ _ _ minus_eq IHa IHb).
    + exact (same_op Qmult _ _ _ _ mult_eq IHa IHb).
  - destruct (tr_int a) as [x|]; [|discriminate]. injection E as <-. specialize (IHa _ eq_refl). cbn [veval denotes].
    destruct (veval r x), (denotes r pl a); cbn in *; try contradiction; auto. rewrite IHa. reflexivity.
Qed.

Section Fix.
  Variable vi : nat -> bool.
  Variable fl : bool.
  Variable pl : place.
  Variable r : env.
  Notation tr_perm := (tr_perm vi fl pl).

  Definition poi (a : amount) : option (vexp * bool) :=
    match a with
    | ANum z => Some (VLit z, true)
    | _ => option_map (fun v => (v, is_int_typed v)) (tr_perm a)
    end.
  Lemma poi_typed a v b : poi a = Some (v, b) -> b = is_int_typed v.
  Proof.
    unfold poi. destruct a; try (intros [= <- <-]; reflexivity);
      match goal with |- option_map _ ?t = _ -> _ => destruct t; [|discriminate]; intros [= <- <-]; reflexivity end.
  Qed.
  Lemma tr_div a b : tr_perm (ABin ODiv a b) =
    match poi a, tr_int b with Some (l, li), Some r => Some (if li then VFrac l r else VPermDiv l r) | _, _ => None end.
  Proof. reflexivity. Qed.
  Lemma tr_mul a b : tr_perm (ABin OMul a b) =
    match poi a, poi b with
    | Some (l, li), Some (r, ri) =>
        let '(l, li, r, ri) := if negb (Bool.eqb li ri) && ri then (r, ri, l, li) else (l, li, r, ri) in
        Some (if li && ri then VMul l r else if li || ri then VIntPermMul l r else VPermMul l r)
    | _, _ => None
    end.
  Proof. reflexivity. Qed.

  Lemma same_mul_comm p p' q q' : same p p' -> same q q' ->
    same (match q, p with Some x, Some y => Some (x * y)%Q | _, _ => None end)
         (match p', q' with Some x, Some y => Some (x * y)%Q | _, _ => None end).
  Proof. destruct p, p', q, q'; cbn; try contradiction; auto. intros -> ->. apply Qmult_comm. Qed.

  Lemma arp_ok v : arp_for_context fl pl = Some v -> same (veval r v) (Some (read_amount r pl)).
  Proof. unfold arp_for_context. destruct pl, fl; intros [= <-]; apply same_refl. Qed.

  Lemma tr_perm_ok a : forall v, tr_perm a = Some v -> same (veval r v) (denotes r pl a).
  Proof.
    assert (POI : forall a, (forall v, tr_perm a = Some v -> same (veval r v) (denotes r pl a)) ->
      forall v b, poi a = Some (v, b) -> same (veval r v) (denotes r pl a)).
    { intros a' H v b. unfold poi. destruct a'; try (intros [= <- <-]; apply same_refl);
        match goal with |- option_map _ ?t = _ -> _ => destruct t; [|discriminate]; intros [= <- <-]; apply H; reflexivity end. }
    induction a as [z|x|t|o a IHa b IHb|a IHa| |a IHa|t| ]; intros v E.
    - cbn in E. destruct (Z.eqb_spec z 1) as [->|]; [|discriminate]. injection E as <-. cbn. reflexivity.
    - cbn in E. injection E as <-. unfold name. destruct (vi x); apply same_refl.
    - cbn in E. injection E as <-. apply same_refl.
    - specialize (POI a IHa) as PA. specialize (POI b IHb) as PB. destruct o.
      + cbn in E. destruct (tr_perm a) as [x|]; [|discriminate]. destruct (tr_perm b) as [y|]; [|discriminate].
        injection E as <-. cbn [veval denotes]. exact (same_op Qplus _ _ _ _ plus_eq (IHa _ eq_refl) (IHb _ eq_refl)).
      + cbn in E. destruct (tr_perm a) as [x|]; [|discriminate]. destruct (tr_perm b) as [y|]; [|discriminate].
        injection E as <-. cbn [veval denotes]. exact (same_op Qminus _ _ _ _ minus_eq (IHa _ eq_refl) (IHb _ eq_refl)).
      + rewrite tr_mul in E. destruct (poi a) as [(x & xi)|]; [|discriminate]. destruct (poi b) as [(y & yi)|]; [|discriminate].
        specialize (PA _ _ eq_refl). specialize (PB _ _ eq_refl).
        destruct xi, yi; cbn in E; injection E as <-; cbn [veval denotes].
        * exact (same_op Qmult _ _ _ _ mult_eq PA PB).
        * exact (same_op Qmult _ _ _ _ mult_eq PA PB).
        * exact (same_mul_comm _ _ _ _ PA PB).
        * exact (same_op Qmult _ _ _ _ mult_eq PA PB).
      + rewrite tr_div in E. destruct (poi a) as [(x & xi)|]; [|discriminate]. destruct (tr_int b) as [y|] eqn:B; [|discriminate].
        specialize (PA _ _ eq_refl). apply (tr_int_ok r pl) in B. injection E as <-. cbn [denotes].
        destruct xi; cbn [veval]; exact (same_div _ _ _ _ PA B).
      + discriminate.
    - discriminate.
    - cbn in E. apply arp_ok. destruct fl; [exact E|discriminate].
    - cbn in E. destruct fl; [|discriminate]. destruct (tr_int a) as [x|] eqn:A; [|discriminate]. injection E as <-.
      apply (tr_int_ok r pl) in A. cbn [veval denotes].
      destruct (veval r x) as [p|], (denotes r pl a) as [q|]; cbn in *; try contradiction; auto.
      rewrite (is_int_eq _ _ A). destruct (is_int q); cbn; [reflexivity|exact I].
    - cbn in E. destruct fl; [|discriminate]. injection E as <-. apply same_refl.
    - cbn in E. destruct fl; [|discriminate]. injection E as <-. apply same_refl.
  Qed.

  Ltac fin := cbn [well_typed typ nowild andb orb negb Bool.eqb];
    repeat match goal with H : typ _ = _ |- _ => rewrite H; clear H | H : nowild _ = true |- _ => rewrite H; clear H | H : well_typed _ = true |- _ => rewrite H; clear H end; reflexivity.
  Ltac done := cbn [andb orb negb Bool.eqb]; eexists; split; [reflexivity|]; split; [reflexivity|]; split; [fin|reflexivity].
  Lemma integer_ok a : integer a -> exists v, tr_int a = Some v /\ typ v = TInt /\ well_typed v = true /\ nowild v = true.
  Proof.
    induction a as [z|x|t|o a IHa b IHb|a IHa| |a IHa|t| ]; cbn [integer]; intros H; try contradiction; try done.
    - destruct o; try contradiction; destruct H as (H1 & H2); destruct (IHa H1) as (x & X1 & X2 & X3 & X4), (IHb H2) as (y & Y1 & Y2 & Y3 & Y4);
        cbn [tr_int]; rewrite X1, Y1; clear X1 Y1; done.
    - destruct (IHa H) as (x & X1 & X2 & X3 & X4). cbn [tr_int]. rewrite X1. clear X1. done.
  Qed.
  Lemma numerator_ok a : numerator a -> exists v, poi a = Some (v, true) /\ typ v = TInt /\ well_typed v = true /\ nowild v = true.
  Proof.
    induction a as [z|x|t|o a IHa b IHb|a IHa| |a IHa|t| ]; cbn [numerator]; intros H; try contradiction; try done.
    destruct o; try contradiction. destruct H as (H1 & H2). destruct (IHa H1) as (x & X1 & X2 & X3 & X4), (IHb H2) as (y & Y1 & Y2 & Y3 & Y4).
    unfold poi. rewrite tr_mul, X1, Y1. clear X1 Y1. cbn [option_map]. done.
  Qed.
  Lemma proper_ok a : fl = true -> pl <> InPure -> proper a ->
    exists v, tr_perm a = Some v /\ typ v = TPerm /\ well_typed v = true /\ nowild v = true.
  Proof.
    intros FL PL. induction 1 as [|a b HA HB|a b HA IH NA HB|a b HA IHa HB IHb|a b HA IHa HB IHb|a b HA HB IH NB|a b HA IH NA HB|a b HA IHa NA HB IHb NB| |a HA|t| ].
    all: assert (POI : forall a v, a <> ANum 1 -> tr_perm a = Some v -> typ v = TPerm -> poi a = Some (v, false))
      by (intros a' v N E T; unfold poi; destruct a'; try (rewrite E; cbn; unfold is_int_typed; rewrite T; reflexivity);
          exfalso; cbn in E; destruct (Z.eqb_spec z 1); [congruence|discriminate]).
    - done.
    - destruct (numerator_ok a HA) as (x & X1 & X2 & X3 & X4), (integer_ok b HB) as (y & Y1 & Y2 & Y3 & Y4).
      rewrite tr_div, X1, Y1. clear X1 Y1. done.
    - destruct IH as (x & X1 & X2 & X3 & X4), (integer_ok b HB) as (y & Y1 & Y2 & Y3 & Y4).
      rewrite tr_div, (POI _ _ NA X1 X2), Y1. clear X1 Y1. done.
    - destruct IHa as (x & X1 & X2 & X3 & X4), IHb as (y & Y1 & Y2 & Y3 & Y4). cbn [PermModel.tr_perm]. rewrite X1, Y1. clear X1 Y1. done.
    - destruct IHa as (x & X1 & X2 & X3 & X4), IHb as (y & Y1 & Y2 & Y3 & Y4). cbn [PermModel.tr_perm]. rewrite X1, Y1. clear X1 Y1. done.
    - destruct (numerator_ok a HA) as (x & X1 & X2 & X3 & X4), IH as (y & Y1 & Y2 & Y3 & Y4).
      rewrite tr_mul, X1, (POI _ _ NB Y1 Y2). clear X1 Y1. done.
    - destruct IH as (x & X1 & X2 & X3 & X4), (numerator_ok b HB) as (y & Y1 & Y2 & Y3 & Y4).
      rewrite tr_mul, Y1, (POI _ _ NA X1 X2). clear X1 Y1. done.
    - destruct IHa as (x & X1 & X2 & X3 & X4), IHb as (y & Y1 & Y2 & Y3 & Y4).
      rewrite tr_mul, (POI _ _ NB Y1 Y2), (POI _ _ NA X1 X2). clear X1 Y1. done.
    - cbn [PermModel.tr_perm]. rewrite FL. unfold arp_for_context. destruct pl; [contradiction PL; reflexivity| | |]; done.
    - destruct (integer_ok a HA) as (x & X1 & X2 & X3 & X4). cbn [PermModel.tr_perm]. rewrite FL, X1. clear X1. done.
    - cbn [PermModel.tr_perm]. rewrite FL. done.
    - cbn [PermModel.tr_perm]. rewrite FL. done.
  Qed.

  Theorem request_meaning q v : accepted vi fl pl q = Some v -> same (veval r v) (requested r pl q).
  Proof.
    unfold accepted. destruct (perm_of vi fl pl q) as [v'|] eqn:E; [|discriminate].
    destruct (typ v'); try discriminate. destruct (well_typed v'); [|discriminate]. intros [= <-].
    destruct q as [|a| |]; cbn in E |- *.
    - injection E as <-. apply same_refl.
    - exact (tr_perm_ok a v' E).
    - exact (arp_ok v' E).
    - injection E as <-. apply same_refl.
  Qed.
End Fix.

(** What Silver accepts is an expression of type Perm. *)
Theorem accepted_perm vi fl pl q v : accepted vi fl pl q = Some v -> typ v = TPerm.
Proof.
  unfold accepted. destruct (perm_of vi fl pl q) as [v'|]; [|discriminate].
  destruct (typ v') eqn:T; try discriminate. destruct (well_typed v'); [|discriminate]. intros [= <-]. exact T.
Qed.
Theorem amount_accepted vi pl a : pl <> InPure -> proper a -> exists v, accepted vi true pl (RAccA a) = Some v.
Proof.
  intros N P. destruct (proper_ok vi true pl a eq_refl N P) as (v & A & B & C & _). exists v. unfold accepted. cbn [perm_of].
  rewrite A, B, C. reflexivity.
Qed.
