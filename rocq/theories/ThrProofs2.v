From Coq Require Import List Bool Arith ZArith QArith Lqa Lia.
From Verif Require Import ThrModel ThrSpec ThrProofs.
Import ListNotations.
Local Open Scope nat_scope.

Section Invariant.
  Variables (sub : nat -> nat -> bool) (P : nat -> method).
  Hypothesis WF : well_formed P.

  Definition post_of (st : state) (t : nat) : list vassert := tr_asn t None (m_post (P (e_meth (thread st t)))).
  Definition TP (st : state) (t : nat) : Q := total_of (table st) (RThreadPost (VThread t)).

  Definition done_ok (st : state) (t : nat) : Prop :=
    (forall r, TP st t * amounts st (post_of st t) r <= e_perm (thread st t) r)%Q /\
    (forall r, 0 <= amounts st (post_of st t) r)%Q /\
    (forall a q, In (Acc a q) (m_post (P (e_meth (thread st t)))) -> 0 <= q)%Q /\
    (forall b p, In (VB b) (post_of st t) -> truth sub P st p b = true).

  Record Inv (st : state) : Prop := {
    i_main : 0 < length (table st) /\ e_status (thread st 0) = Running;
    i_nn : forall t r, t < length (table st) -> (0 <= e_perm (thread st t) r)%Q;
    i_le : forall r, (total_of (table st) r <= 1)%Q;
    i_created : forall t, t < length (table st) -> e_status (thread st t) = Created ->
      (forall r, e_perm (thread st t) r == 0)%Q /\ (TP st t == 0)%Q;
    i_started : forall t, t < length (table st) -> e_status (thread st t) <> Created ->
      (total_of (table st) (RMayStart (VThread t)) == 0)%Q;
    i_exists : forall r, thread_resource r = true ->
      (forall t, t < length (table st) -> r <> RMayStart (VThread t) /\ r <> RThreadPost (VThread t)) ->
      (total_of (table st) r == 0)%Q;
    i_done : forall t, t < length (table st) -> e_status (thread st t) = Done -> (0 < TP st t)%Q -> done_ok st t;
    i_typed : forall t, 0 < t < length (table st) ->
      typed_args sub (m_types (P (e_meth (thread st t)))) (e_args (thread st t));
    i_failed : forall t, t < length (table st) -> e_status (thread st t) <> Failed }.

  Lemma nn_in st r : (forall t r, t < length (table st) -> (0 <= e_perm (thread st t) r)%Q) ->
    forall e, In e (table st) -> (0 <= e_perm e r)%Q.
  Proof.
    intros H e I. apply (In_nth _ _ default_entry) in I as (t & L & <-). exact (H t r L).
  Qed.

  Lemma TP_nonneg st t : Inv st -> (0 <= TP st t)%Q.
  Proof. intros I. apply total_nonneg. exact (nn_in st _ (i_nn st I)). Qed.

  Lemma perm_le_total st i r : Inv st -> i < length (table st) -> (e_perm (thread st i) r <= total_of (table st) r)%Q.
  Proof. intros I L. apply total_ge; [exact (nn_in st _ (i_nn st I))|exact L]. Qed.

  (** ** When facts stay true *)

  Lemma eval_ext st st' t e :
    same_thread st st' t ->
    (forall i f, In (i, f) (reads e) ->
       heap st (nth i (e_args (thread st t)) (VInt 0)) f = heap st' (nth i (e_args (thread st t)) (VInt 0)) f) ->
    eval st (tr_exp t e) = eval st' (tr_exp t e).
  Proof.
    intros (_ & Ea & Eo). induction e as [i|v|i f|i f|a IHa b IHb]; cbn [tr_exp eval reads]; intros H.
    - rewrite Ea. reflexivity.
    - reflexivity.
    - rewrite <- Ea. apply H. left. reflexivity.
    - rewrite Eo. reflexivity.
    - rewrite IHa, IHb; [reflexivity| |]; intros i f I; apply H, in_or_app; auto.
  Qed.

  Lemma facts_ext st st' t :
    same_thread st st' t ->
    (forall a b i f, In (Same a b) (m_post (P (e_meth (thread st t)))) -> In (i, f) (reads a ++ reads b) ->
       heap st (nth i (e_args (thread st t)) (VInt 0)) f = heap st' (nth i (e_args (thread st t)) (VInt 0)) f) ->
    forall b p p', In (VB b) (post_of st t) -> truth sub P st p b = true -> truth sub P st' p' b = true.
  Proof.
    intros ST H b p p' I T. unfold post_of in I. apply in_tr_asn in I as (a & Ia & I).
    destruct (WF (e_meth (thread st t))) as (SH & _). rewrite Forall_forall in SH. specialize (SH a Ia).
    destruct a as [a q|a a'].
    - destruct a; try contradiction; destruct I as [I|[]]; discriminate.
    - destruct I as [I|[]]. inversion I; subst. cbn [truth] in *. rewrite <- !(eval_ext st st' t); auto.
      + intros i f J. apply (H a a' i f Ia). apply in_or_app. auto.
      + intros i f J. apply (H a a' i f Ia). apply in_or_app. auto.
  Qed.

  Lemma done_ok_ext st st' t :
    same_thread st st' t -> heap st = heap st' ->
    (TP st' t <= TP st t)%Q ->
    (forall r, e_perm (thread st t) r - (TP st t - TP st' t) * amounts st (post_of st t) r <= e_perm (thread st' t) r)%Q ->
    done_ok st t -> done_ok st' t.
  Proof.
    intros ST EH TL PL (H1 & H2 & H3 & H4). pose proof ST as (Em & Ea & _).
    assert (A : forall r, amounts st' (post_of st' t) r = amounts st (post_of st t) r).
    { intros r. unfold post_of. rewrite <- Em. symmetry. apply amounts_asn. exact Ea. }
    split; [|split; [|split]].
    - intros r. rewrite A. specialize (H1 r). specialize (PL r).
      apply Qle_trans with (e_perm (thread st t) r - (TP st t - TP st' t) * amounts st (post_of st t) r)%Q; [|exact PL].
      setoid_replace (TP st' t * amounts st (post_of st t) r)%Q
        with (TP st t * amounts st (post_of st t) r - (TP st t - TP st' t) * amounts st (post_of st t) r)%Q by ring.
      lra.
    - intros r. rewrite A. apply H2.
    - rewrite <- Em. exact H3.
    - intros b p I. apply (facts_ext st st' t ST) with (p := p).
      + intros a a' i f _ _. rewrite EH. reflexivity.
      + unfold post_of in *. rewrite Em. exact I.
      + apply H4. unfold post_of in *. rewrite Em. exact I.
  Qed.

  (** The amount that a postcondition promises for a field it reads is positive. *)
  Lemma amount_positive st t l i f q :
    In (Acc (AField i f) q) l -> (0 < q)%Q -> (forall a x, In (Acc a x) l -> 0 <= x)%Q ->
    (0 < amounts st (tr_asn t None l) (RField (nth i (e_args (thread st t)) (VInt 0)) f))%Q.
  Proof.
    intros I Q0 NN. set (r := RField _ _).
    assert (X : forall l, (forall a x, In (Acc a x) l -> 0 <= x)%Q -> (0 <= amounts st (tr_asn t None l) r)%Q).
    { clear. induction l as [|a l IH]; intros NN; [cbn; lra|]. unfold tr_asn. cbn [flat_map]. rewrite amounts_app.
      fold (tr_asn t None l). specialize (IH (fun a x I => NN a x (or_intror I))).
      assert (0 <= amounts st (tr_atom t None a) r)%Q; [|lra].
      destruct a as [a x|a b]; [|cbn; lra]. pose proof (NN a x (or_introl eq_refl)).
      destruct a; cbn [tr_atom tr_acc amounts scaled eval_perm];
        match goal with |- context [res_eqb ?a ?b] => destruct (res_eqb a b) end; lra. }
    induction l as [|a l IH]; [destruct I|]. unfold tr_asn. cbn [flat_map]. rewrite amounts_app. fold (tr_asn t None l).
    pose proof (X l (fun a x I => NN a x (or_intror I))) as Xl. destruct I as [->|I].
    - cbn [tr_atom tr_acc amounts scaled eval_perm eval_res eval]. fold r. rewrite res_eqb_refl. lra.
    - specialize (IH I (fun a x I => NN a x (or_intror I))).
      pose proof (X [a] (fun a' x J => match J with or_introl E => NN a' x (or_introl E) | or_intror F => match F with end end)) as Xa.
      unfold tr_asn in Xa. cbn [flat_map] in Xa. rewrite app_nil_r in Xa. lra.
  Qed.

  (** ** Assignments *)
  Lemma inv_write i o f v st :
    Inv st -> i < length (table st) -> e_status (thread st i) = Running ->
    (1 <= e_perm (thread st i) (RField o f))%Q ->
    Inv (St (fun o' f' => if val_eqb o o' && (f =? f') then v else heap st o' f') (table st)).
  Proof.
    intros I Li Ri W. set (st' := St _ _).
    assert (TH : forall t, thread st' t = thread st t) by reflexivity.
    destruct I as [IM IN IL IC IS IX ID IT IF].
    constructor; auto.
    intros t L D T0. destruct (ID t L D T0) as (H1 & H2 & H3 & H4).
    assert (ST : same_thread st st' t) by (repeat split).
    assert (A : forall r, amounts st' (post_of st t) r = amounts st (post_of st t) r)
      by (intros r; unfold post_of; symmetry; apply amounts_asn; reflexivity).
    split; [|split; [|split]].
    - intros r. change (thread st' t) with (thread st t). change (TP st' t) with (TP st t).
      change (post_of st' t) with (post_of st t). rewrite A. apply H1.
    - intros r. change (post_of st' t) with (post_of st t). rewrite A. apply H2.
    - exact H3.
    - intros b p J. apply (facts_ext st st' t ST) with (p := p); [|exact J|exact (H4 b p J)].
      intros a a' k g Ia Ik. unfold st'. cbn [heap]. destruct (val_eqb o (nth k (e_args (thread st t)) (VInt 0)) && (f =? g)) eqn:E; [|reflexivity].
      exfalso. apply andb_true_iff in E as (E1 & E2). apply val_eqb_eq in E1. apply Nat.eqb_eq in E2. subst f.
      destruct (WF (e_meth (thread st t))) as (_ & SF). destruct (SF a a' k g Ia Ik) as (q & Iq & Q0).
      pose proof (amount_positive st t _ k g q Iq Q0 H3) as AP. rewrite <- E1 in AP. fold (post_of st t) in AP.
      specialize (H1 (RField o g)).
      assert (N : i <> t) by (intros ->; congruence).
      pose proof (total_ge2 (table st) (RField o g) i t default_entry (nn_in st _ IN) Li L N) as TT.
      pose proof (IL (RField o g)) as LE. fold (thread st i) in TT. fold (thread st t) in TT.
      assert (PT : (0 < TP st t * amounts st (post_of st t) (RField o g))%Q) by (apply Qmult_lt_0_compat; assumption).
      lra.
  Qed.

  (** ** Steps that change the permissions of one thread *)
  Lemma inv_perm i p st :
    Inv st -> i < length (table st) -> e_status (thread st i) = Running ->
    (forall r, 0 <= p r)%Q ->
    (forall r, total_of (table st) r - e_perm (thread st i) r + p r <= 1)%Q ->
    (forall r, thread_resource r = true -> p r <= e_perm (thread st i) r)%Q ->
    Inv (set_perm st i p).
  Proof.
    intros I Li Ri NN LE TR. set (st' := set_perm st i p). pose proof I as [IM IN IL IC IS IX ID IT IF].
    assert (LEN : length (table st') = length (table st)) by apply set_perm_length.
    assert (TH : forall t, thread st' t = if i =? t then En (e_meth (thread st i)) (e_args (thread st i)) (e_olds (thread st i)) (e_status (thread st i)) p else thread st t)
      by (intros t; apply thread_set_perm; exact Li).
    assert (TOT : forall r, (total_of (table st') r == total_of (table st) r - e_perm (thread st i) r + p r)%Q)
      by (intros r; apply total_set_perm; exact Li).
    assert (SM : forall t, same_thread st st' t).
    { intros t. unfold same_thread. rewrite TH. destruct (Nat.eqb_spec i t); [subst|]; repeat split. }
    assert (SS : forall t, e_status (thread st' t) = e_status (thread st t)).
    { intros t. rewrite TH. destruct (Nat.eqb_spec i t); [subst|]; reflexivity. }
    assert (NT : forall r, thread_resource r = true -> (0 <= total_of (table st') r <= total_of (table st) r)%Q).
    { intros r R. split.
      - rewrite TOT. pose proof (perm_le_total st i r I Li). pose proof (NN r). lra.
      - rewrite TOT. pose proof (TR r R). lra. }
    constructor; rewrite ?LEN.
    - rewrite SS. exact IM.
    - intros t r L. rewrite TH. destruct (i =? t); [apply NN|exact (IN t r L)].
    - intros r. rewrite TOT. apply LE.
    - intros t L C. rewrite SS in C. destruct (IC t L C) as (C1 & C2). split.
      + intros r. rewrite TH. destruct (Nat.eqb_spec i t); [subst; congruence|apply C1].
      + unfold TP in *. destruct (NT (RThreadPost (VThread t)) eq_refl). lra.
    - intros t L C. rewrite SS in C. pose proof (IS t L C). destruct (NT (RMayStart (VThread t)) eq_refl). lra.
    - intros r R H. pose proof (IX r R H). destruct (NT r R). lra.
    - intros t L D T0. rewrite SS in D.
      assert (N : i <> t) by (intros ->; congruence).
      assert (TL : (TP st' t <= TP st t)%Q) by (destruct (NT (RThreadPost (VThread t)) eq_refl); assumption).
      assert (T1 : (0 < TP st t)%Q) by lra. pose proof (ID t L D T1) as DO.
      apply (done_ok_ext st st' t (SM t)); [reflexivity|exact TL| |exact DO].
      intros r. rewrite TH. destruct (Nat.eqb_spec i t); [contradiction|]. destruct DO as (_ & H2 & _). specialize (H2 r).
      assert (0 <= (TP st t - TP st' t) * amounts st (post_of st t) r)%Q by (apply Qmult_le_0_compat; lra). lra.
    - intros t L. destruct (SM t) as (<- & <- & _). exact (IT t L).
    - intros t L. rewrite SS. exact (IF t L).
  Qed.

  Lemma inv_new i r st :
    Inv st -> i < length (table st) -> e_status (thread st i) = Running ->
    thread_resource r = false -> (total_of (table st) r == 0)%Q ->
    Inv (set_perm st i (plus (e_perm (thread st i)) r 1)).
  Proof.
    intros I Li Ri NR Z. apply inv_perm; auto.
    - intros r'. pose proof (i_nn st I i r' Li). unfold plus. destruct (res_eqb r r'); lra.
    - intros r'. pose proof (i_le st I r'). unfold plus. destruct (res_eqb r r') eqn:R; [|lra].
      apply res_eqb_eq in R. subst r'. lra.
    - intros r' R. unfold plus. destruct (res_eqb r r') eqn:E; [|lra]. apply res_eqb_eq in E. congruence.
  Qed.

  Lemma inv_drop i p st :
    Inv st -> i < length (table st) -> e_status (thread st i) = Running ->
    (forall r, (0 <= p r)%Q /\ (p r <= e_perm (thread st i) r)%Q) -> Inv (set_perm st i p).
  Proof.
    intros I Li Ri H. apply inv_perm; auto.
    - intros r. apply H.
    - intros r. pose proof (i_le st I r). destruct (H r). lra.
    - intros r _. apply H.
  Qed.

  (** ** Creating *)
  Lemma arg_facts_only t i l v : In v (arg_facts t i l) -> exists b, v = VB b.
  Proof. revert i. induction l as [|x l IH]; intros i I; [destruct I|]. destruct I as [<-|I]; [eauto|exact (IH _ I)]. Qed.

  Lemma arg_facts_true st t args : e_args (thread st t) = args ->
    forall p b, In (VB b) (arg_facts t 0 args) -> truth sub P st p b = true.
  Proof.
    intros E p.
    assert (X : forall l i, (forall j, j < length l -> nth (i + j) (e_args (thread st t)) (VInt 0) = nth j l (VInt 0)) ->
              forall b, In (VB b) (arg_facts t i l) -> truth sub P st p b = true).
    { induction l as [|x l IH]; intros i N b I; [destruct I|]. destruct I as [I|I].
      - inversion I; subst. cbn [truth eval]. pose proof (N 0 ltac:(cbn [length]; lia)) as N0. rewrite Nat.add_0_r in N0.
        rewrite N0. apply val_eqb_eq. reflexivity.
      - apply (IH (S i)); [|exact I]. intros j J. pose proof (N (S j) ltac:(cbn [length]; lia)) as Nj. cbn [nth] in Nj.
        rewrite <- Nj. f_equal. lia. }
    intros b I. apply (X args 0); [|exact I]. intros j _. rewrite E. reflexivity.
  Qed.

  Lemma create_spec st t m args p p' ok :
    e_meth (thread st t) = m -> e_args (thread st t) = args ->
    exec sub P st p (create_stmts t m (m_types (P m)) args) = Some (p', ok) ->
    p' = plus p (RMayStart (VThread t)) 1 /\ ok = true /\
    truth sub P st p (type_checks (combine args (m_types (P m)))) = true.
  Proof.
    intros Em Ea E. unfold create_stmts in E.
    rewrite exec_cons, exec1_inhale in E. cbn [inhale truth] in E. rewrite Em, Nat.eqb_refl in E. cbn [andb] in E.
    rewrite exec_cons in E. change (exec1 sub P st p (Assert (type_checks (combine args (m_types (P m))))))
      with (if truth sub P st p (type_checks (combine args (m_types (P m)))) then Some (p, true) else None) in E.
    destruct (truth sub P st p (type_checks (combine args (m_types (P m))))) eqn:TC; [|discriminate].
    rewrite exec_cons, exec1_inhale in E.
    destruct (inhale_facts sub P st (arg_facts t 0 args) (arg_facts_only t 0 args) p) as (F1 & F2).
    destruct (inhale sub P st p (arg_facts t 0 args)) as (q & o). cbn [fst snd] in F1, F2. subst q.
    rewrite (proj2 F2 (arg_facts_true st t args Ea p)) in E.
    rewrite exec_cons, exec1_inhale in E. cbn [inhale exec eval_res eval eval_perm andb] in E. inversion E; subst.
    repeat split.
  Qed.

  Lemma thread_app st e t : thread (St (heap st) (table st ++ [e])) t =
    if t =? length (table st) then e else thread st t.
  Proof.
    unfold thread. cbn [table]. destruct (Nat.eqb_spec t (length (table st))) as [->|N].
    - rewrite app_nth2, Nat.sub_diag by lia. reflexivity.
    - destruct (Nat.lt_ge_cases t (length (table st))).
      + apply app_nth1. assumption.
      + rewrite !nth_overflow; [reflexivity|assumption|]. rewrite app_length. cbn [length]. lia.
  Qed.

  Lemma inv_create i m args st p' ok :
    Inv st -> i < length (table st) -> e_status (thread st i) = Running ->
    typed_args sub (m_types (P m)) args ->
    let t := length (table st) in
    let st1 := St (heap st) (table st ++ [En m args [] Created (fun _ => 0%Q)]) in
    exec sub P st1 (e_perm (thread st i)) (create_stmts t m (m_types (P m)) args) = Some (p', ok) ->
    ok = true /\ Inv (set_perm st1 i p').
  Proof.
    intros I Li Ri TY t st1 E. pose proof I as [IM IN IL IC IS IX ID IT IF].
    assert (T1 : thread st1 t = En m args [] Created (fun _ => 0%Q)) by (unfold st1; rewrite thread_app; unfold t; rewrite Nat.eqb_refl; reflexivity).
    destruct (create_spec st1 t m args _ _ _ ltac:(rewrite T1; reflexivity) ltac:(rewrite T1; reflexivity) E) as (EP & -> & _).
    split; [reflexivity|].
    assert (LEN1 : length (table st1) = S t) by (unfold st1; cbn [table]; rewrite app_length; cbn [length]; unfold t; lia).
    set (st' := set_perm st1 i p').
    assert (LEN : length (table st') = S t) by (unfold st'; rewrite set_perm_length; exact LEN1).
    assert (TI : thread st1 i = thread st i).
    { unfold st1. rewrite thread_app. destruct (Nat.eqb_spec i (length (table st))); [lia|reflexivity]. }
    assert (TH : forall j, thread st' j =
       if i =? j then En (e_meth (thread st i)) (e_args (thread st i)) (e_olds (thread st i)) (e_status (thread st i)) p'
       else if j =? t then En m args [] Created (fun _ => 0%Q) else thread st j).
    { intros j. unfold st'. rewrite thread_set_perm by lia. rewrite TI. unfold st1. rewrite thread_app. reflexivity. }
    assert (TOT : forall r, (total_of (table st') r == total_of (table st) r + (if res_eqb (RMayStart (VThread t)) r then 1 else 0))%Q).
    { intros r. unfold st'. rewrite total_set_perm by lia. rewrite TI. unfold st1. cbn [table]. rewrite total_app. cbn [total_of e_perm].
      rewrite EP. unfold plus. destruct (res_eqb (RMayStart (VThread t)) r); lra. }
    assert (Z : forall r, r = RMayStart (VThread t) \/ r = RThreadPost (VThread t) -> (total_of (table st) r == 0)%Q).
    { intros r [-> | ->]; apply IX; try reflexivity; intros j Lj; unfold t; split; intros E'; inversion E'; lia. }
    assert (Nit : i <> t) by (unfold t; lia).
    constructor; rewrite ?LEN.
    - split; [lia|]. rewrite TH. destruct IM as (L0 & S0). destruct (Nat.eqb_spec i 0); [subst; exact S0|].
      destruct (Nat.eqb_spec 0 t); [unfold t in *; lia|exact S0].
    - intros j r L. rewrite TH. destruct (i =? j) eqn:Ej; [|destruct (Nat.eqb_spec j t)]; cbn [e_perm].
      + rewrite EP. pose proof (IN i r Li). unfold plus. destruct (res_eqb (RMayStart (VThread t)) r); lra.
      + lra.
      + apply IN. unfold t in *. lia.
    - intros r. rewrite TOT. destruct (res_eqb (RMayStart (VThread t)) r) eqn:R.
      + apply res_eqb_eq in R. rewrite (Z r (or_introl (eq_sym R))). lra.
      + pose proof (IL r). lra.
    - intros j L C. rewrite TH in C |- *. unfold TP. destruct (Nat.eqb_spec i j); [subst; cbn [e_status] in C; congruence|].
      rewrite TOT. cbn [res_eqb]. destruct (Nat.eqb_spec j t) as [->|Nj].
      + cbn [e_perm]. split; [intros; lra|]. rewrite (Z (RThreadPost (VThread t)) (or_intror eq_refl)). lra.
      + destruct (IC j ltac:(unfold t in *; lia) C) as (C1 & C2). split; [exact C1|]. unfold TP in C2. lra.
    - intros j L C. rewrite TOT. destruct (Nat.eqb_spec j t) as [->|Nj].
      + exfalso. apply C. rewrite TH. destruct (Nat.eqb_spec i t); [contradiction|]. rewrite Nat.eqb_refl. reflexivity.
      + rewrite (res_eqb_neq (RMayStart (VThread t)) (RMayStart (VThread j))) by congruence.
        assert (C' : e_status (thread st j) <> Created).
        { intros C'. apply C. rewrite TH. destruct (Nat.eqb_spec i j); [subst; exact C'|].
          destruct (Nat.eqb_spec j t); [contradiction|exact C']. }
        pose proof (IS j ltac:(unfold t in *; lia) C'). lra.
    - intros r R H. rewrite TOT. destruct (H t ltac:(lia)) as (H1 & _).
      rewrite (res_eqb_neq (RMayStart (VThread t)) r) by congruence.
      assert (X : (total_of (table st) r == 0)%Q) by (apply (IX r R); intros j Lj; apply H; unfold t; lia). lra.
    - intros j L D T0.
      assert (Nij : i <> j).
      { intros ->. rewrite TH, Nat.eqb_refl in D. cbn [e_status] in D. congruence. }
      assert (Njt : j <> t).
      { intros ->. rewrite TH, Nat.eqb_refl in D. destruct (Nat.eqb_spec i t); [contradiction|]. discriminate. }
      assert (TE : thread st' j = thread st j).
      { rewrite TH. destruct (Nat.eqb_spec i j); [contradiction|]. destruct (Nat.eqb_spec j t); [contradiction|reflexivity]. }
      assert (TPE : (TP st' j == TP st j)%Q) by (unfold TP; rewrite TOT; cbn [res_eqb]; lra).
      assert (DO : done_ok st j) by (apply ID; [unfold t in *; lia|rewrite <- TE; exact D|lra]).
      apply (done_ok_ext st st' j); [unfold same_thread; rewrite TE; repeat split|reflexivity|lra| |exact DO].
      intros r. rewrite TE. setoid_replace (TP st j - TP st' j)%Q with 0%Q by lra. lra.
    - intros j L. rewrite TH. destruct (Nat.eqb_spec i j) as [->|]; [apply IT; lia|].
      destruct (Nat.eqb_spec j t); [exact TY|]. apply IT. unfold t in *. lia.
    - intros j L. rewrite TH. destruct (Nat.eqb_spec i j) as [->|]; [apply IF; lia|].
      destruct (Nat.eqb_spec j t); [discriminate|]. apply IF. unfold t in *. lia.
  Qed.

  (** ** Starting *)
  Lemma start_created i t st : Inv st -> i < length (table st) -> t < length (table st) ->
    (1 <= e_perm (thread st i) (RMayStart (VThread t)))%Q -> e_status (thread st t) = Created.
  Proof.
    intros I Li Lt Q. destruct (e_status (thread st t)) eqn:S0; [reflexivity| | |];
      exfalso; assert (C : e_status (thread st t) <> Created) by congruence;
      pose proof (i_started st I t Lt C); pose proof (perm_le_total st i (RMayStart (VThread t)) I Li); lra.
  Qed.

  Lemma inv_start i t opts st p' ok :
    Inv st -> i < length (table st) -> e_status (thread st i) = Running -> t < length (table st) -> NoDup opts ->
    let st1 := begin_thread P st t in
    exec sub P st1 (e_perm (thread st i)) (start_stmts P t opts) = Some (p', ok) ->
    e_status (thread st t) = Created /\ ok = true /\
    Inv (set_perm (set_perm st1 t (amounts st1 (tr_asn t None (m_pre (P (e_meth (thread st t))))))) i p').
  Proof.
    intros I Li Ri Lt ND st1 E. pose proof I as [IM IN IL IC IS IX ID IT IF].
    destruct (start_spec sub P st t opts _ p' ok Lt ND E) as (Q1 & p2 & EX & EP & OK).
    pose proof (start_created i t st I Li Lt Q1) as CR. split; [exact CR|].
    assert (T0 : t <> 0) by (intros ->; destruct IM; congruence).
    split; [apply OK; apply IT; lia|]. fold st1 in EX.
    set (pre := tr_asn t None (m_pre (P (e_meth (thread st t))))) in *.
    destruct (exhale_asn sub P st1 t _ _ _ EX) as (X1 & X2 & X3 & _ & _). fold pre in X1, X2.
    assert (Nit : i <> t) by (intros ->; congruence).
    destruct (IC t Lt CR) as (PZ & TZ).
    assert (LEN1 : length (table st1) = length (table st)) by apply set_thread_length.
    assert (TH1 : forall j, j <> t -> thread st1 j = thread st j).
    { intros j Nj. unfold st1, begin_thread. rewrite thread_set by exact Lt. destruct (Nat.eqb_spec t j); [congruence|reflexivity]. }
    pose proof (begin_thread_at P st t Lt) as BT. fold st1 in BT.
    set (st2 := set_perm st1 t (amounts st1 pre)). set (st' := set_perm st2 i p').
    assert (LEN2 : length (table st2) = length (table st)) by (unfold st2; rewrite set_perm_length; exact LEN1).
    assert (LEN : length (table st') = length (table st)) by (unfold st'; rewrite set_perm_length; exact LEN2).
    assert (TT : thread st' t = En (e_meth (thread st t)) (e_args (thread st t)) (e_olds (thread st1 t)) Running (amounts st1 pre)).
    { unfold st'. rewrite thread_set_perm by lia. destruct (Nat.eqb_spec i t); [contradiction|].
      unfold st2. rewrite thread_set_perm by lia. rewrite Nat.eqb_refl, BT. reflexivity. }
    assert (TI : thread st' i = En (e_meth (thread st i)) (e_args (thread st i)) (e_olds (thread st i)) (e_status (thread st i)) p').
    { unfold st'. rewrite thread_set_perm by lia. rewrite Nat.eqb_refl. unfold st2. rewrite thread_set_perm by lia.
      destruct (Nat.eqb_spec t i); [congruence|]. rewrite (TH1 i Nit). reflexivity. }
    assert (TJ : forall j, j <> i -> j <> t -> thread st' j = thread st j).
    { intros j Ni Nt. unfold st'. rewrite thread_set_perm by lia. destruct (Nat.eqb_spec i j); [congruence|].
      unfold st2. rewrite thread_set_perm by lia. destruct (Nat.eqb_spec t j); [congruence|]. exact (TH1 j Nt). }
    assert (TOT : forall r, (total_of (table st') r ==
       total_of (table st) r - (if res_eqb (RMayStart (VThread t)) r then 1 else 0)
       + (if m_term (P (e_meth (thread st t))) (e_args (thread st t)) then if res_eqb (RThreadPost (VThread t)) r then 1 else 0 else 0))%Q).
    { intros r. unfold st'. rewrite total_set_perm by lia. unfold st2 at 2. rewrite thread_set_perm by lia.
      destruct (Nat.eqb_spec t i); [congruence|]. rewrite (TH1 i Nit). unfold st2. rewrite total_set_perm by lia. rewrite BT. cbn [e_perm].
      unfold st1, begin_thread at 1. rewrite total_set_thread by exact Lt. cbn [e_perm]. fold st1. rewrite EP.
      pose proof (X1 r) as X1r. pose proof (PZ r) as PZr. unfold minus in X1r.
      destruct (m_term (P (e_meth (thread st t))) (e_args (thread st t))); unfold plus;
        destruct (res_eqb (RThreadPost (VThread t)) r); rewrite X1r; destruct (res_eqb (RMayStart (VThread t)) r); lra. }
    assert (P2N : forall r, (0 <= p2 r)%Q).
    { apply X3. intros r. unfold minus. destruct (res_eqb (RMayStart (VThread t)) r) eqn:R; [|apply IN; exact Li].
      apply res_eqb_eq in R. subst r. lra. }
    assert (P'N : forall r, (0 <= p' r)%Q).
    { intros r. rewrite EP. pose proof (P2N r). destruct (m_term _ _); [|assumption]. unfold plus.
      destruct (res_eqb (RThreadPost (VThread t)) r); lra. }
    assert (MS : (total_of (table st) (RMayStart (VThread t)) == 1)%Q).
    { pose proof (IL (RMayStart (VThread t))). pose proof (perm_le_total st i (RMayStart (VThread t)) I Li). lra. }
    assert (SS : forall j, j <> t -> e_status (thread st' j) = e_status (thread st j)).
    { intros j Nj. destruct (Nat.eq_dec j i) as [->|Ni]; [rewrite TI; reflexivity|rewrite (TJ j Ni Nj); reflexivity]. }
    constructor; rewrite ?LEN.
    - rewrite (SS 0) by congruence. exact IM.
    - intros j r L. destruct (Nat.eq_dec j t) as [->|Nt]; [rewrite TT; apply X2|].
      destruct (Nat.eq_dec j i) as [->|Ni]; [rewrite TI; apply P'N|rewrite (TJ j Ni Nt); exact (IN j r L)].
    - intros r. rewrite TOT. pose proof (IL r). destruct (res_eqb (RThreadPost (VThread t)) r) eqn:R.
      + apply res_eqb_eq in R. subst r. cbn [res_eqb]. unfold TP in TZ. rewrite TZ. destruct (m_term _ _); lra.
      + destruct (m_term _ _); destruct (res_eqb (RMayStart (VThread t)) r); lra.
    - intros j L C. destruct (Nat.eq_dec j t) as [->|Nt]; [rewrite TT in C; discriminate|].
      rewrite (SS j Nt) in C. assert (Ni : j <> i) by (intros ->; congruence). destruct (IC j L C) as (C1 & C2).
      rewrite (TJ j Ni Nt). split; [exact C1|]. unfold TP in *. rewrite TOT.
      rewrite (res_eqb_neq (RMayStart (VThread t)) (RThreadPost (VThread j))) by congruence.
      rewrite (res_eqb_neq (RThreadPost (VThread t)) (RThreadPost (VThread j))) by congruence.
      destruct (m_term _ _); lra.
    - intros j L C. rewrite TOT. rewrite (res_eqb_neq (RThreadPost (VThread t)) (RMayStart (VThread j))) by congruence.
      destruct (Nat.eq_dec j t) as [->|Nt].
      + rewrite res_eqb_refl, MS. destruct (m_term _ _); lra.
      + rewrite (res_eqb_neq (RMayStart (VThread t)) (RMayStart (VThread j))) by congruence.
        rewrite (SS j Nt) in C. pose proof (IS j L C). destruct (m_term _ _); lra.
    - intros r R H. rewrite TOT. destruct (H t Lt) as (H1 & H2).
      rewrite (res_eqb_neq _ r (not_eq_sym H1)), (res_eqb_neq _ r (not_eq_sym H2)). pose proof (IX r R H). destruct (m_term _ _); lra.
    - intros j L D T1. assert (Nt : j <> t) by (intros ->; rewrite TT in D; discriminate).
      rewrite (SS j Nt) in D. assert (Ni : j <> i) by (intros ->; congruence).
      assert (TPE : (TP st' j == TP st j)%Q).
      { unfold TP. rewrite TOT. rewrite (res_eqb_neq (RMayStart (VThread t)) (RThreadPost (VThread j))) by congruence.
        rewrite (res_eqb_neq (RThreadPost (VThread t)) (RThreadPost (VThread j))) by congruence. destruct (m_term _ _); lra. }
      pose proof (TJ j Ni Nt) as TE.
      apply (done_ok_ext st st' j); [unfold same_thread; rewrite TE; repeat split|reflexivity|lra| |apply ID; [exact L|exact D|lra]].
      intros r. rewrite TE. setoid_replace (TP st j - TP st' j)%Q with 0%Q by lra. lra.
    - intros j L. destruct (Nat.eq_dec j t) as [->|Nt]; [rewrite TT; apply IT; lia|].
      destruct (Nat.eq_dec j i) as [->|Ni]; [rewrite TI; apply IT; lia|rewrite (TJ j Ni Nt); apply IT; lia].
    - intros j L. destruct (Nat.eq_dec j t) as [->|Nt]; [rewrite TT; discriminate|]. rewrite (SS j Nt). exact (IF j L).
  Qed.

  (** ** Joining *)
  Lemma inv_join i t opts st p' ok :
    Inv st -> i < length (table st) -> e_status (thread st i) = Running -> t < length (table st) ->
    e_status (thread st t) = Done -> NoDup opts ->
    exec sub P st (e_perm (thread st i)) (join_stmts P t opts) = Some (p', ok) ->
    ok = true /\
    Inv (set_perm
           (set_perm st t (fun r => if res_eqb (RThreadPost (VThread t)) r then e_perm (thread st t) r
                                    else (e_perm (thread st t) r - (p' r - e_perm (thread st i) r))%Q))
           i p').
  Proof.
    intros I Li Ri Lt Dt ND E. pose proof I as [IM IN IL IC IS IX ID IT IF].
    destruct (join_spec sub P st t opts _ p' ok Lt ND WF (fun r => IN i r Li) E) as (x & Ex & EP & OK).
    set (q := e_perm (thread st i) (RThreadPost (VThread t))) in *.
    assert (T0 : t <> 0) by (intros ->; destruct IM; congruence).
    assert (Nit : i <> t) by (intros ->; congruence).
    pose proof (IN i (RThreadPost (VThread t)) Li) as Q0. fold q in Q0.
    assert (QT : (q <= TP st t)%Q) by (apply perm_le_total; assumption).
    assert (DO : (0 < q)%Q -> done_ok st t) by (intros QP; apply ID; [exact Lt|exact Dt|lra]).
    split.
    { apply OK; [apply IT; lia|]. intros QP b J. destruct (DO QP) as (_ & _ & _ & H4). exact (H4 b _ J). }
    set (post := tr_asn t None (m_post (P (e_meth (thread st t))))) in *.
    (* x times the postcondition is there *)
    assert (SH := proj1 (WF (e_meth (thread st t)))).
    assert (TR : forall r, thread_resource r = true -> (amounts st post r == 0)%Q).
    { intros r R. unfold post. clear - SH R. induction (m_post (P (e_meth (thread st t)))) as [|a l IH]; [reflexivity|].
      inversion SH as [|? ? Sa Sl]; subst. unfold tr_asn. cbn [flat_map]. rewrite amounts_app. fold (tr_asn t None l).
      rewrite (IH Sl). destruct r; try discriminate; (destruct a as [a' y|a' b']; [destruct a'; try contradiction|]);
        cbn [tr_atom tr_acc amounts eval_res res_eqb]; lra. }
    assert (XN : (0 <= x)%Q) by (destruct Ex; subst; lra).
    assert (XT : (x <= TP st t)%Q) by (destruct Ex; subst; lra).
    assert (AV : forall r,
      ((0 <= x * amounts st post r)%Q /\ (x * amounts st post r <= e_perm (thread st t) r)%Q /\
       ((TP st t - q) * amounts st post r <= e_perm (thread st t) r - x * amounts st post r)%Q) \/
      (q == 0 /\ x == 0)%Q).
    { intros r. destruct (Qlt_le_dec 0 q) as [QP|QP].
      - left. destruct (DO QP) as (H1 & H2 & _ & _). fold post in H1, H2. unfold post_of in H1, H2. fold post in H1, H2.
        specialize (H1 r). specialize (H2 r). destruct Ex as [-> | ->].
        + split; [apply Qmult_le_0_compat; assumption|]. split.
          * apply Qle_trans with (TP st t * amounts st post r)%Q; [apply Qmult_le_compat_r; assumption|exact H1].
          * setoid_replace ((TP st t - q) * amounts st post r)%Q with (TP st t * amounts st post r - q * amounts st post r)%Q by ring. lra.
        + split; [lra|]. split; [pose proof (IN t r Lt); lra|].
          assert (0 <= q * amounts st post r)%Q by (apply Qmult_le_0_compat; assumption).
          setoid_replace ((TP st t - q) * amounts st post r)%Q with (TP st t * amounts st post r - q * amounts st post r)%Q by ring. lra.
      - right. split; [lra|]. destruct Ex as [-> | ->]; lra. }
    assert (AX : forall r, (0 <= x * amounts st post r)%Q /\ (x * amounts st post r <= e_perm (thread st t) r)%Q).
    { intros r. pose proof (IN t r Lt). destruct (AV r) as [(A1 & A2 & _)|(_ & A)]; [split; assumption|];
        (setoid_replace (x * amounts st post r)%Q with 0%Q by (rewrite A; ring)); split; lra. }
    set (pt := fun r => if res_eqb (RThreadPost (VThread t)) r then e_perm (thread st t) r
                        else (e_perm (thread st t) r - (p' r - e_perm (thread st i) r))%Q).
    assert (PT : forall r, (pt r == e_perm (thread st t) r - x * amounts st post r)%Q).
    { intros r. unfold pt. destruct (res_eqb (RThreadPost (VThread t)) r) eqn:R.
      - apply res_eqb_eq in R. subst r. rewrite (TR (RThreadPost (VThread t)) eq_refl). ring.
      - rewrite (EP r). rewrite R. ring. }
    set (st2 := set_perm st t pt). set (st' := set_perm st2 i p').
    assert (LEN2 : length (table st2) = length (table st)) by apply set_perm_length.
    assert (LEN : length (table st') = length (table st)) by (unfold st'; rewrite set_perm_length; exact LEN2).
    assert (TT : thread st' t = En (e_meth (thread st t)) (e_args (thread st t)) (e_olds (thread st t)) (e_status (thread st t)) pt).
    { unfold st'. rewrite thread_set_perm by lia. destruct (Nat.eqb_spec i t); [contradiction|].
      unfold st2. rewrite thread_set_perm by lia. rewrite Nat.eqb_refl. reflexivity. }
    assert (TI : thread st' i = En (e_meth (thread st i)) (e_args (thread st i)) (e_olds (thread st i)) (e_status (thread st i)) p').
    { unfold st'. rewrite thread_set_perm by lia. rewrite Nat.eqb_refl. unfold st2. rewrite thread_set_perm by lia.
      destruct (Nat.eqb_spec t i); [congruence|]. reflexivity. }
    assert (TJ : forall j, j <> i -> j <> t -> thread st' j = thread st j).
    { intros j Ni Nt. unfold st'. rewrite thread_set_perm by lia. destruct (Nat.eqb_spec i j); [congruence|].
      unfold st2. rewrite thread_set_perm by lia. destruct (Nat.eqb_spec t j); [congruence|]. reflexivity. }
    assert (TOT : forall r, (total_of (table st') r == total_of (table st) r - (if res_eqb (RThreadPost (VThread t)) r then q else 0))%Q).
    { intros r. unfold st'. rewrite total_set_perm by lia. unfold st2 at 2. rewrite thread_set_perm by lia.
      destruct (Nat.eqb_spec t i); [congruence|]. unfold st2. rewrite total_set_perm by lia. rewrite (PT r), (EP r). ring. }
    assert (SM : forall j, same_thread st st' j).
    { intros j. unfold same_thread. destruct (Nat.eq_dec j t) as [->|Nt]; [rewrite TT; repeat split|].
      destruct (Nat.eq_dec j i) as [->|Ni]; [rewrite TI; repeat split|rewrite (TJ j Ni Nt); repeat split]. }
    assert (SS : forall j, e_status (thread st' j) = e_status (thread st j)).
    { intros j. destruct (Nat.eq_dec j t) as [->|Nt]; [rewrite TT; reflexivity|].
      destruct (Nat.eq_dec j i) as [->|Ni]; [rewrite TI; reflexivity|rewrite (TJ j Ni Nt); reflexivity]. }
    constructor; rewrite ?LEN.
    - rewrite (SS 0). exact IM.
    - intros j r L. destruct (Nat.eq_dec j t) as [->|Nt].
      + rewrite TT. cbn [e_perm]. rewrite (PT r). destruct (AX r). lra.
      + destruct (Nat.eq_dec j i) as [->|Ni]; [|rewrite (TJ j Ni Nt); exact (IN j r L)].
        rewrite TI. cbn [e_perm]. rewrite (EP r). destruct (AX r). pose proof (IN i r Li).
        destruct (res_eqb (RThreadPost (VThread t)) r) eqn:R; [|lra]. apply res_eqb_eq in R. subst r. fold q. fold q in H1. lra.
    - intros r. rewrite TOT. pose proof (IL r). destruct (res_eqb (RThreadPost (VThread t)) r); lra.
    - intros j L C. rewrite (SS j) in C.
      assert (Nt : j <> t) by (intros ->; congruence). assert (Ni : j <> i) by (intros ->; congruence).
      destruct (IC j L C) as (C1 & C2). rewrite (TJ j Ni Nt). split; [exact C1|]. unfold TP in *. rewrite TOT.
      rewrite (res_eqb_neq (RThreadPost (VThread t)) (RThreadPost (VThread j))) by congruence. lra.
    - intros j L C. rewrite (SS j) in C. rewrite TOT.
      rewrite (res_eqb_neq (RThreadPost (VThread t)) (RMayStart (VThread j))) by congruence. pose proof (IS j L C). lra.
    - intros r R H. rewrite TOT. destruct (H t Lt) as (_ & H2). rewrite (res_eqb_neq _ r (not_eq_sym H2)). pose proof (IX r R H). lra.
    - intros j L D T1. rewrite (SS j) in D. assert (Ni : j <> i) by (intros ->; congruence).
      destruct (Nat.eq_dec j t) as [->|Nt].
      + assert (TPE : (TP st' t == TP st t - q)%Q) by (unfold TP; rewrite TOT, res_eqb_refl; reflexivity).
        assert (DT : done_ok st t) by (apply ID; [exact Lt|exact Dt|lra]).
        apply (done_ok_ext st st' t (SM t)); [reflexivity|lra| |exact DT].
        intros r. rewrite TT. cbn [e_perm]. rewrite (PT r). unfold post_of. fold post.
        setoid_replace (TP st t - TP st' t)%Q with q by lra. destruct DT as (H1 & H2 & _). unfold post_of in H1, H2. fold post in H1, H2.
        specialize (H2 r). destruct Ex as [-> | ->]; [lra|]. assert (0 <= q * amounts st post r)%Q by (apply Qmult_le_0_compat; assumption). lra.
      + assert (TPE : (TP st' j == TP st j)%Q).
        { unfold TP. rewrite TOT. rewrite (res_eqb_neq (RThreadPost (VThread t)) (RThreadPost (VThread j))) by congruence. lra. }
        apply (done_ok_ext st st' j (SM j)); [reflexivity|lra| |apply ID; [exact L|exact D|lra]].
        intros r. rewrite (TJ j Ni Nt). setoid_replace (TP st j - TP st' j)%Q with 0%Q by lra. lra.
    - intros j L. destruct (SM j) as (<- & <- & _). exact (IT j L).
    - intros j L. rewrite (SS j). exact (IF j L).
  Qed.

  (** ** Ending *)
  Lemma inv_finish t st p' :
    Inv st -> 0 < t < length (table st) -> e_status (thread st t) = Running ->
    let e := thread st t in
    let l := tr_asn t None (m_post (P (e_meth e))) in
    exhale sub P st (e_perm e) l = Some p' ->
    Inv (set_thread st t (En (e_meth e) (e_args e) (e_olds e) Done (amounts st l))).
  Proof.
    intros I (T0 & Lt) Rt e l E. pose proof I as [IM IN IL IC IS IX ID IT IF].
    destruct (exhale_asn sub P st t _ _ _ E) as (X1 & X2 & X3 & X4 & X5). fold l in X1, X2, X4, X5.
    set (st' := set_thread st t _).
    assert (LEN : length (table st') = length (table st)) by apply set_thread_length.
    assert (TH : forall j, thread st' j = if t =? j then En (e_meth e) (e_args e) (e_olds e) Done (amounts st l) else thread st j)
      by (intros j; apply thread_set; exact Lt).
    assert (AL : forall r, (amounts st l r <= e_perm e r)%Q).
    { intros r. pose proof (X3 (fun r => IN t r Lt) r). rewrite (X1 r) in H. lra. }
    assert (TOT : forall r, (total_of (table st') r == total_of (table st) r - e_perm e r + amounts st l r)%Q)
      by (intros r; unfold st'; rewrite total_set_thread by exact Lt; reflexivity).
    assert (TL : forall r, (total_of (table st') r <= total_of (table st) r)%Q) by (intros r; rewrite TOT; pose proof (AL r); lra).
    assert (NN : forall j r, j < length (table st) -> (0 <= e_perm (thread st' j) r)%Q).
    { intros j r L. rewrite TH. destruct (t =? j); [apply X2|exact (IN j r L)]. }
    assert (TN : forall r, (0 <= total_of (table st') r)%Q).
    { intros r. apply total_nonneg. apply nn_in. intros j r' L. apply NN. lia. }
    assert (SM : forall j, same_thread st st' j).
    { intros j. unfold same_thread. rewrite TH. destruct (Nat.eqb_spec t j); [subst j|]; repeat split. }
    constructor; rewrite ?LEN.
    - rewrite TH. destruct (Nat.eqb_spec t 0); [lia|exact IM].
    - exact NN.
    - intros r. pose proof (TL r). pose proof (IL r). lra.
    - intros j L C. rewrite TH in C |- *. destruct (Nat.eqb_spec t j); [discriminate|].
      destruct (IC j L C) as (C1 & C2). split; [exact C1|]. unfold TP in *. pose proof (TL (RThreadPost (VThread j))). pose proof (TN (RThreadPost (VThread j))). lra.
    - intros j L C. assert (C' : e_status (thread st j) <> Created).
      { rewrite TH in C. destruct (Nat.eqb_spec t j); [subst j; congruence|exact C]. }
      pose proof (IS j L C'). pose proof (TL (RMayStart (VThread j))). pose proof (TN (RMayStart (VThread j))). lra.
    - intros r R H. pose proof (IX r R H). pose proof (TL r). pose proof (TN r). lra.
    - intros j L D T1. destruct (Nat.eq_dec t j) as [<-|Nj].
      + assert (A : forall r, amounts st' (post_of st' t) r = amounts st l r).
        { intros r. unfold post_of. destruct (SM t) as (Em & Ea & _). rewrite <- Em. symmetry. apply amounts_asn. exact Ea. }
        assert (TU : (TP st' t <= 1)%Q) by (unfold TP; pose proof (TL (RThreadPost (VThread t))); pose proof (IL (RThreadPost (VThread t))); lra).
        split; [|split; [|split]].
        * intros r. rewrite A, TH, Nat.eqb_refl. cbn [e_perm]. pose proof (X2 r).
          apply Qle_trans with (1 * amounts st l r)%Q; [apply Qmult_le_compat_r; assumption|lra].
        * intros r. rewrite A. apply X2.
        * destruct (SM t) as (Em & _). rewrite <- Em. intros a q Ia.
          destruct (WF (e_meth (thread st t))) as (SH & _). rewrite Forall_forall in SH. specialize (SH _ Ia).
          assert (Y : forall w, tr_acc t None a q = [VAcc w (PLit q)] -> (0 <= q)%Q).
          { intros w Ew. apply (X4 w q). unfold l. apply in_tr_asn. exists (Acc a q). split; [exact Ia|]. cbn [tr_atom]. rewrite Ew. left. reflexivity. }
          destruct a; try contradiction; eapply Y; reflexivity.
        * intros b p J. unfold post_of in J. destruct (SM t) as (Em & _). rewrite <- Em in J.
          apply (facts_ext st st' t (SM t)) with (p := e_perm e); [reflexivity|exact J|exact (X5 b J)].
      + rewrite TH in D. destruct (Nat.eqb_spec t j); [contradiction|].
        assert (TLj : (TP st' j <= TP st j)%Q) by apply TL.
        assert (DJ : done_ok st j) by (apply ID; [exact L|exact D|lra]).
        apply (done_ok_ext st st' j (SM j)); [reflexivity|exact TLj| |exact DJ].
        intros r. rewrite TH. destruct (Nat.eqb_spec t j); [contradiction|]. destruct DJ as (_ & H2 & _). specialize (H2 r).
        assert (0 <= (TP st j - TP st' j) * amounts st (post_of st j) r)%Q by (apply Qmult_le_0_compat; lra). lra.
    - intros j L. destruct (SM j) as (<- & <- & _). exact (IT j L).
    - intros j L. rewrite TH. destruct (Nat.eqb_spec t j); [discriminate|exact (IF j L)].
  Qed.

  (** ** Executions *)
  Lemma inv_initial st : initial st -> Inv st.
  Proof.
    intros (e & T & R & H).
    assert (TH : thread st 0 = e) by (unfold thread; rewrite T; reflexivity).
    assert (TOT : forall r, (total_of (table st) r == e_perm e r)%Q) by (intros r; rewrite T; cbn [total_of]; lra).
    assert (LEN : length (table st) = 1) by (rewrite T; reflexivity).
    constructor; rewrite ?LEN.
    - rewrite TH. split; [lia|exact R].
    - intros t r L. assert (t = 0) as -> by lia. rewrite TH. apply H.
    - intros r. rewrite TOT. apply H.
    - intros t L C. assert (t = 0) as -> by lia. rewrite TH in C. congruence.
    - intros t L _. rewrite TOT. apply H. reflexivity.
    - intros r TR _. rewrite TOT. apply H. exact TR.
    - intros t L D. assert (t = 0) as -> by lia. rewrite TH in D. congruence.
    - intros t L. lia.
    - intros t L. assert (t = 0) as -> by lia. rewrite TH, R. discriminate.
  Qed.

  Lemma inv_step st l st' : Inv st -> step sub P st l st' ->
    distinct_options l -> typed_label sub P l -> no_exception l ->
    Inv st' /\ assumes_truth l /\
    (forall i t opts ok, l = LStart i t opts ok -> e_status (thread st t) = Created).
  Proof.
    intros I S DO TY NE. inversion S; subst; clear S.
    - split; [|split; [exact Logic.I|discriminate]]. eapply inv_write; eassumption.
    - split; [|split; [exact Logic.I|discriminate]]. apply inv_new; assumption.
    - split; [|split; [exact Logic.I|discriminate]]. apply inv_drop; assumption.
    - destruct (inv_create i m args st p' ok I H H0 TY H2) as (-> & I'). split; [exact I'|split; [reflexivity|discriminate]].
    - destruct (inv_start i t opts st p' ok I H H0 H1 DO H2) as (CR & -> & I'). split; [exact I'|split; [reflexivity|]].
      intros i' t' o' k' E. inversion E; subst. exact CR.
    - destruct H2 as [D|F]; [|exfalso; exact (i_failed st I t H1 F)].
      destruct (inv_join i t opts st p' ok I H H0 H1 D DO H3) as (-> & I'). split; [exact I'|split; [reflexivity|discriminate]].
    - split; [|split; [exact Logic.I|discriminate]]. eapply inv_finish; eassumption.
    - destruct NE.
  Qed.

  Lemma inv_steps st0 tr st : steps sub P st0 tr st -> initial st0 ->
    Forall distinct_options tr -> Forall (typed_label sub P) tr -> Forall no_exception tr ->
    Inv st /\ Forall assumes_truth tr.
  Proof.
    intros S IN. induction S as [st|st1 tr st2 l st3 S IH STEP]; intros D T NE.
    - split; [apply inv_initial; exact IN|constructor].
    - apply Forall_app in D as (D1 & D2). apply Forall_app in T as (T1 & T2). apply Forall_app in NE as (N1 & N2).
      apply Forall_inv in D2. apply Forall_inv in T2. apply Forall_inv in N2.
      destruct (IH IN D1 T1 N1) as (I2 & A2).
      destruct (inv_step st2 l st3 I2 STEP D2 T2 N2) as (I3 & A3 & _).
      split; [exact I3|]. apply Forall_app. split; [exact A2|constructor; [exact A3|constructor]].
  Qed.

  Lemma race st0 tr st : initial st0 -> steps sub P st0 tr st ->
    Forall distinct_options tr -> Forall (typed_label sub P) tr -> Forall no_exception tr ->
    race_free st /\ Forall assumes_truth tr.
  Proof.
    intros IN S D T N. destruct (inv_steps st0 tr st S IN D T N) as (I & A). split; [|exact A].
    intros i j r (Li & Ri) (Lj & Rj) Nij. unfold holds.
    pose proof (total_ge2 (table st) r i j default_entry (nn_in st _ (i_nn st I)) Li Lj Nij) as TT.
    pose proof (i_le st I r). unfold thread. lra.
  Qed.

  Lemma once st0 tr st i t opts ok st' : initial st0 -> steps sub P st0 tr st ->
    Forall distinct_options tr -> Forall (typed_label sub P) tr -> Forall no_exception tr ->
    NoDup opts -> step sub P st (LStart i t opts ok) st' -> e_status (thread st t) = Created.
  Proof.
    intros IN S D T N ND STEP. destruct (inv_steps st0 tr st S IN D T N) as (I & A).
    destruct (inv_step st _ st' I STEP ND Logic.I Logic.I) as (_ & _ & X). exact (X i t opts ok eq_refl).
  Qed.
End Invariant.
