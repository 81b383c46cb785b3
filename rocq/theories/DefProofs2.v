(** Local variables of functions and methods: the theorems. *)
From Coq Require Import List Bool Arith NArith ZArith Lia.
From Verif Require Import NamesModel NamesSpec NamesProofs DefModel DefSpec DefProofs.
Import ListNotations.
Local Open Scope nat_scope.

(** ** What calls let Viper know *)

Definition fun_idents (T : table) : list N := flat_map (fun p => map ident (fun_locals p)) T.

Lemma efacts_in (vc : nat -> Z -> vval) (vf : nat -> Z -> list N) L v e :
  (forall f z i, In i (vf f z) -> In i L) -> forall i, In i (efacts vc vf v e) -> In i L.
Proof.
  intros H. induction e; cbn [efacts]; intros i I; try contradiction.
  - apply in_app_or in I as [I|I]; auto.
  - apply in_app_or in I as [I|I]; auto.
  - apply in_app_or in I as [I|I]; auto. destruct (veval vc v e1) as [z|]; [|contradiction]. destruct (truth z); auto.
  - apply in_app_or in I as [I|I]; auto. destruct (veval vc v e) as [z|]; [eauto|contradiction].
Qed.

Lemma rfacts_in (vc : nat -> Z -> vval) (vf : nat -> Z -> list N) L ret ws :
  (forall f z i, In i (vf f z) -> In i L) ->
  (forall x, In x (flat_map (fun w => match w with WAssign _ x _ => [x] | _ => [] end) ws) -> In (ident x) L) ->
  forall v c i, In i (rfacts vc vf v c ws ret) -> In i L.
Proof.
  intros H. induction ws as [|[g k e|g x e] ws IH]; intros HL v c i I; cbn [rfacts] in I.
  - eapply efacts_in; eassumption.
  - apply in_app_or in I as [I|I].
    + destruct (passes c g); [|contradiction]. eapply efacts_in; eassumption.
    + eapply IH; [|exact I]. intros y Y. apply HL. exact Y.
  - apply in_app_or in I as [I|I].
    + destruct (passes c g); [|contradiction]. apply in_app_or in I as [I|[<-|[]]].
      * eapply efacts_in; eassumption.
      * apply HL. cbn [flat_map]. left. reflexivity.
    + eapply IH; [|exact I]. intros y Y. apply HL. cbn [flat_map]. right. exact Y.
Qed.

Lemma vfacts_in T f z : forall i, In i (vfacts T f z) -> In i (fun_idents T).
Proof.
  revert f z. induction T as [|p T IH]; intros f z i I; cbn [vfacts] in I; [contradiction|].
  destruct (f =? length T).
  - eapply rfacts_in; [| |exact I].
    + intros f' z' i' I'. unfold fun_idents. cbn [flat_map]. apply in_or_app. right. eapply IH. exact I'.
    + intros x X. unfold fun_idents. cbn [flat_map]. apply in_or_app. left. apply in_map. exact X.
  - unfold fun_idents. cbn [flat_map]. apply in_or_app. right. eapply IH. exact I.
Qed.

(** The interpretation of _isDefined: variables with a value, and those of functions. *)
Definition dset (T : table) (ns : list name) (nm : name -> name) (st : store) (i : N) : bool :=
  existsb (fun y => match st y with Some _ => N.eqb i (ident (nm y)) | None => false end) ns ||
  existsb (N.eqb i) (fun_idents T).

Lemma dset_fun T ns nm st i : In i (fun_idents T) -> dset T ns nm st i = true.
Proof.
  intros I. unfold dset. apply orb_true_iff. right. apply existsb_exists. exists i. split; [exact I|apply N.eqb_refl].
Qed.

Lemma dset_def T ns nm st y : In y ns -> st y <> None -> dset T ns nm st (ident (nm y)) = true.
Proof.
  intros I S. unfold dset. apply orb_true_iff. left. apply existsb_exists. exists y. split; [exact I|].
  destruct (st y); [apply N.eqb_refl|congruence].
Qed.

Lemma dset_inv T ns nm st x : (forall y, In y ns -> latin1_name (nm y)) ->
  (forall p y, In p T -> In y (fun_locals p) -> latin1_name y /\ y <> nm x) -> In x ns ->
  (forall y, In y ns -> nm x = nm y -> x = y) -> dset T ns nm st (ident (nm x)) = true -> st x <> None.
Proof.
  intros L A IX INJ H. unfold dset in H. apply orb_true_iff in H as [H|H]; apply existsb_exists in H as (y & I & H).
  - destruct (st y) eqn:S; [|discriminate]. apply N.eqb_eq in H. apply string_to_int_inj in H; auto.
    apply INJ in H; [|exact I]. subst. congruence.
  - apply N.eqb_eq in H. subst y. unfold fun_idents in I. apply in_flat_map in I as (p & P & I).
    apply in_map_iff in I as (y & H & I). destruct (A p y P I) as (LY & NY). apply string_to_int_inj in H; auto.
Qed.

(** ** Functions *)

Section Function.
  Variable T : table.
  Variable p : pfun.
  Hypothesis CA : calls_agree T.

  (** The variables when the function ends or fails. *)
  Fixpoint pfinal (s : store) (c : conds) (ws : list wrap) : store :=
    match ws with
    | [] => s
    | WCond g k e :: ws' =>
        if passes c g then match peval (pcall T) s e with PV z => pfinal s (set_cond c k (truth z)) ws' | PE _ => s end
        else pfinal s (set_cond c k false) ws'
    | WAssign g x e :: ws' =>
        if passes c g then match peval (pcall T) s e with PV z => pfinal (set s x (Some z)) c ws' | PE _ => s end
        else pfinal s c ws'
    end.

  Lemma pfinal_grows ws : forall s c x, s x <> None -> pfinal s c ws x <> None.
  Proof.
    induction ws as [|[g k e|g y e] ws IH]; intros s c x H; cbn [pfinal]; auto.
    - destruct (passes c g); [destruct (peval (pcall T) s e)|]; auto.
    - destruct (passes c g); [destruct (peval (pcall T) s e)|]; auto using set_grows.
  Qed.

  Lemma fun_sim D : (forall f z i, In i (vfacts T f z) -> D i = true) -> forall ws s c v, ext v s ->
    (forall y, In y (flat_map wrap_names ws) -> pfinal s c ws y <> None -> D (ident y) = true) ->
    ~ In underscore (flat_map wrap_reads ws ++ reads (pf_ret p)) -> wrun D T p v c ws ->
    match prun (pcall T) s c ws (pf_ret p) with
    | PV z => vrun (vcall T) v c ws (pf_ret p) = Some z
    | PE x => In x (flat_map wrap_reads ws ++ reads (pf_ret p)) /\ pfinal s c ws x = None /\
              match fun_loc p x with Some i => D i = true | None => True end
    end.
  Proof.
    intros FI. induction ws as [|[g k e|g y e] ws IH]; intros s c v E DG U W; cbn [wrun prun vrun pfinal flat_map wrap_reads] in *.
    - cbn [app] in *. destruct (peval (pcall T) s (pf_ret p)) as [z|x] eqn:P.
      + eapply peval_veval; eassumption.
      + eapply peval_err; eassumption.
    - assert (Ue : ~ In underscore (reads e)) by (intros X; apply U; apply in_or_app; left; apply in_or_app; auto).
      assert (Uw : ~ In underscore (flat_map wrap_reads ws ++ reads (pf_ret p))).
      { intros X. apply U. rewrite <- app_assoc. apply in_or_app. auto. }
      destruct (passes c g); cbn [andb].
      + destruct (peval (pcall T) s e) as [z|x] eqn:P; cbn [bind].
        * pose proof (wpe_pv D T CA FI _ v s e _ z E Ue W P) as K. cbv beta iota in K.
          rewrite (peval_veval T CA v s e z E P).
          assert (G : forall y, In y (flat_map wrap_names ws) -> pfinal s (set_cond c k (truth z)) ws y <> None -> D (ident y) = true).
          { intros y I. apply DG. apply in_or_app. auto. }
          specialize (IH s (set_cond c k (truth z)) v E G Uw K).
          destruct (prun (pcall T) s (set_cond c k (truth z)) ws (pf_ret p)); [exact IH|].
          destruct IH as (I & R). split; [|exact R]. rewrite <- app_assoc. apply in_or_app. auto.
        * destruct (peval_err D T CA FI _ v s e x E _ Ue W P) as (I & R). split; [|exact R].
          rewrite <- app_assoc. apply in_or_app. auto.
      + assert (G : forall y, In y (flat_map wrap_names ws) -> pfinal s (set_cond c k false) ws y <> None -> D (ident y) = true).
        { intros y I. apply DG. apply in_or_app. auto. }
        specialize (IH s (set_cond c k false) v E G Uw W).
        destruct (prun (pcall T) s (set_cond c k false) ws (pf_ret p)); [exact IH|].
        destruct IH as (I & R). split; [|exact R]. rewrite <- app_assoc. apply in_or_app. auto.
    - assert (Ue : ~ In underscore (reads e)) by (intros X; apply U; apply in_or_app; left; apply in_or_app; auto).
      assert (Uw : ~ In underscore (flat_map wrap_reads ws ++ reads (pf_ret p))).
      { intros X. apply U. rewrite <- app_assoc. apply in_or_app. auto. }
      destruct (passes c g).
      + destruct (peval (pcall T) s e) as [z|x] eqn:P; cbn [bind].
        * pose proof (wpe_pv D T CA FI _ v s e _ z E Ue W P) as K. cbv beta iota in K.
          rewrite (peval_veval T CA v s e z E P).
          assert (DY : D (ident y) = true).
          { apply DG; [cbn [wrap_names]; left; reflexivity|]. apply pfinal_grows. rewrite set_same. discriminate. }
          assert (G : forall y', In y' (flat_map wrap_names ws) -> pfinal (set s y (Some z)) c ws y' <> None -> D (ident y') = true).
          { intros y' I. apply DG. cbn [wrap_names]. right. apply in_or_app. auto. }
          specialize (IH (set s y (Some z)) c (set v y (Some z)) (ext_set v s y z E) G Uw (K DY)).
          destruct (prun (pcall T) (set s y (Some z)) c ws (pf_ret p)); [exact IH|].
          destruct IH as (I & R). split; [|exact R]. rewrite <- app_assoc. apply in_or_app. auto.
        * destruct (peval_err D T CA FI _ v s e x E _ Ue W P) as (I & R). split; [|exact R].
          rewrite <- app_assoc. apply in_or_app. auto.
      + assert (G : forall y', In y' (flat_map wrap_names ws) -> pfinal s c ws y' <> None -> D (ident y') = true).
        { intros y' I. apply DG. cbn [wrap_names]. right. apply in_or_app. auto. }
        specialize (IH s c v E G Uw W).
        destruct (prun (pcall T) s c ws (pf_ret p)); [exact IH|].
        destruct IH as (I & R). split; [|exact R]. rewrite <- app_assoc. apply in_or_app. auto.
  Qed.
End Function.

Lemma reads_names ws r x : In x (flat_map wrap_reads ws ++ reads r) -> In x (flat_map wrap_names ws ++ reads r).
Proof.
  intros I. apply in_app_or in I as [I|I]; apply in_or_app; [left|right; exact I].
  apply in_flat_map in I as (w & W & I). apply in_flat_map. exists w. split; [exact W|]. destruct w; cbn in *; auto.
Qed.

Lemma locals_names p x : In x (fun_locals p) -> In x (fun_names p).
Proof.
  intros I. unfold fun_locals in I. unfold fun_names. apply in_or_app. left.
  apply in_flat_map in I as (w & W & I). apply in_flat_map. exists w. split; [exact W|].
  destruct w; cbn in *; [contradiction|]. destruct I as [I|[]]. auto.
Qed.

Lemma table_latin1 T : table_named T -> forall p y, In p T -> In y (fun_locals p) -> latin1_name y.
Proof.
  induction T as [|q T IH]; intros TN p y P I; [contradiction|]. destruct TN as (N & TN).
  destruct P as [->|P]; [|eapply IH; eassumption]. apply N. now apply locals_names.
Qed.

Lemma functions_fine T : table_ok T -> table_named T -> calls_agree T.
Proof.
  induction T as [|p T IH]; intros OK TN; cbn [table_ok table_named] in *.
  - intros f z. exists 0%Z. split; reflexivity.
  - destruct OK as (FO & OK). destruct TN as (N & TN). specialize (IH OK TN).
    intros f z. cbn [pcall vcall]. destruct (f =? length T); [|apply IH].
    set (s := set (fun _ => None) (pf_arg p) (Some z)).
    set (fin := pfinal T s (fun _ => false) (pf_wraps p)).
    set (D := dset T (fun_names p) (fun x => x) fin).
    assert (E : ext (fun_env p z) s) by (intros x; unfold fun_env, s, set; destruct (pystring_eqb (pf_arg p) x); reflexivity).
    assert (FI : forall f z i, In i (vfacts T f z) -> D i = true).
    { intros f' z' i I. apply dset_fun. eapply vfacts_in. exact I. }
    assert (G : forall y, In y (flat_map wrap_names (pf_wraps p)) -> fin y <> None -> D (ident y) = true).
    { intros y I S. apply (dset_def T (fun_names p) (fun x => x)); [|exact S]. unfold fun_names. apply in_or_app. auto. }
    assert (U : ~ In underscore (flat_map wrap_reads (pf_wraps p) ++ reads (pf_ret p))).
    { intros X. apply reads_names in X. apply N in X as (_ & X & _). congruence. }
    pose proof (fun_sim T p IH D FI (pf_wraps p) s (fun _ => false) (fun_env p z) E G U (FO D z)) as H.
    destruct (prun (pcall T) s (fun _ => false) (pf_wraps p) (pf_ret p)) as [w|x].
    + exists w. split; [reflexivity|exact H].
    + exfalso. destruct H as (I & FN & DX). fold fin in FN. apply reads_names in I. unfold fun_loc in DX.
      destruct (pystring_eqb x (pf_arg p)) eqn:XA.
      * apply name_eqb_eq in XA. subst x. assert (fin (pf_arg p) <> None); [|contradiction].
        apply pfinal_grows. unfold s. rewrite set_same. discriminate.
      * revert DX. change (ident x) with (ident ((fun x => x) x)). intros DX.
        apply (dset_inv T (fun_names p) (fun x => x) fin x) in DX; auto.
        -- intros y Y. now apply N.
        -- intros q y Q Y. split; [eapply table_latin1; eassumption|]. destruct (N x I) as (_ & _ & A). exact (A q y Q Y).
Qed.

(** ** Methods *)

Lemma locals_fine T m : table_ok T -> table_named T -> method_ok T m -> plain (m_body m) -> method_named T m -> runs_fine T m.
Proof.
  intros OK TN MO PL MN s o ST X. destruct o as [s'|s' x]; [exists s'; reflexivity|]. exfalso.
  pose proof (functions_fine T OK TN) as CA.
  set (D := dset T (names (m_body m)) (m_sil m) s').
  assert (FI : forall f z i, In i (vfacts T f z) -> D i = true).
  { intros f' z' i I. apply dset_fun. eapply vfacts_in. exact I. }
  assert (G : dgood D (local m) (names (m_body m)) s').
  { intros y I S. unfold local. destruct (existsb _ _); [exact Logic.I|]. destruct (pystring_eqb y [95%N]); [exact Logic.I|].
    apply dset_def; assumption. }
  assert (W : wp D T (local m) (m_body m) (fun _ => True) s).
  { apply MO. intros y I. apply ST. exact I. }
  destruct (proj1 (simulation D T CA FI (local m) (names (m_body m))) _ _ _ X s _ (fun y => eq_refl) PL (fun y I => I) G W) as (I & NU & N & L).
  unfold local in L. destruct (existsb (pystring_eqb x) (m_args m)) eqn:AR.
  - apply existsb_exists in AR as (a & A & EQ). apply name_eqb_eq in EQ. subst a.
    apply (proj1 (grows T) _ _ _ X PL x); [apply ST; exact A|exact N].
  - destruct (MN x I) as (LX & AX & IX). destruct (pystring_eqb x [95%N]) eqn:US.
    + apply name_eqb_eq in US. contradiction.
    + apply dset_inv in L; auto.
      * intros y Y. now apply MN.
      * intros q y Q Y. split; [eapply table_latin1; eassumption|exact (AX q y Q Y)].
Qed.
