(** Proofs about local variables. *)
From Coq Require Import List Bool Arith NArith ZArith Lia.
From Verif Require Import NamesModel NamesSpec NamesProofs DefModel DefSpec.
Import ListNotations.
Local Open Scope nat_scope.

Lemma name_eqb_eq (a b : name) : pystring_eqb a b = true <-> a = b.
Proof.
  revert b. induction a as [|x a IH]; intros [|y b]; cbn [pystring_eqb]; split; intros H; try congruence.
  - apply andb_true_iff in H as (H1 & H2). apply N.eqb_eq in H1. apply IH in H2. congruence.
  - inversion H; subst. apply andb_true_iff. split; [apply N.eqb_refl|apply IH; reflexivity].
Qed.

Lemma name_eqb_refl (a : name) : pystring_eqb a a = true.
Proof. apply name_eqb_eq. reflexivity. Qed.

Lemma name_eqb_neq (a b : name) : pystring_eqb a b = false <-> a <> b.
Proof. rewrite <- not_true_iff_false, name_eqb_eq. reflexivity. Qed.

Lemma name_dec (a b : name) : {a = b} + {a <> b}.
Proof. destruct (pystring_eqb a b) eqn:E; [left; now apply name_eqb_eq|right; now apply name_eqb_neq]. Qed.

Lemma set_same {A} (s : name -> A) x z : set s x z x = z.
Proof. unfold set. now rewrite name_eqb_refl. Qed.

Lemma set_other {A} (s : name -> A) x z y : x <> y -> set s x z y = s y.
Proof. intros N. unfold set. now rewrite (proj2 (name_eqb_neq x y) N). Qed.

Definition ext (v : venv) (s : store) : Prop := forall x, v x = s x.

Lemma ext_set v s x z : ext v s -> ext (set v x (Some z)) (set s x (Some z)).
Proof. intros E y. unfold set. destruct (pystring_eqb x y); [reflexivity|apply E]. Qed.

(** Calls never fail, and Viper's value is right. *)
Definition calls_agree (T : table) : Prop := forall f z, exists w, pcall T f z = PV w /\ vcall T f z = Some w.

Section Expr.
  Variable D : N -> bool.
  Variable T : table.
  Hypothesis CA : calls_agree T.
  Hypothesis FI : forall f z i, In i (vfacts T f z) -> D i = true.
  Variable loc : name -> option N.

  Lemma wpe_val v e : forall k, ~ In underscore (reads e) -> wpe D T loc v e k -> k (veval (vcall T) v e).
  Proof.
    induction e as [z|x|a IHa b IHb|a IHa b IHb|c IHc a IHa b IHb|f a IHa]; intros k U W; cbn [wpe veval reads] in *.
    - exact W.
    - destruct (pystring_eqb x [95%N]) eqn:E; [apply name_eqb_eq in E; exfalso; apply U; left; exact E|]. exact (proj2 W).
    - apply IHa in W; [|intros X; apply U; apply in_or_app; auto]. apply IHb in W; [|intros X; apply U; apply in_or_app; auto].
      destruct (veval (vcall T) v a), (veval (vcall T) v b); cbn [lift]; try contradiction; exact W.
    - apply IHa in W; [|intros X; apply U; apply in_or_app; auto]. apply IHb in W; [|intros X; apply U; apply in_or_app; auto].
      destruct (veval (vcall T) v a), (veval (vcall T) v b); cbn [lift]; try contradiction; exact W.
    - apply IHc in W; [|intros X; apply U; apply in_or_app; auto].
      destruct (veval (vcall T) v c) as [z|]; [|contradiction].
      destruct (truth z); [apply IHa|apply IHb]; auto; intros X; apply U; apply in_or_app; right; apply in_or_app; auto.
    - apply IHa in W; [|exact U]. destruct (veval (vcall T) v a) as [z|]; [|contradiction]. apply W. intros i I. exact (FI f z i I).
  Qed.

  Lemma peval_veval v s e z : ext v s -> peval (pcall T) s e = PV z -> veval (vcall T) v e = Some z.
  Proof.
    intros E. revert z. induction e as [z'|x|a IHa b IHb|a IHa b IHb|c IHc a IHa b IHb|f a IHa]; intros z H; cbn [peval veval] in *.
    - now inversion H.
    - rewrite E. destruct (s x); now inversion H.
    - destruct (peval (pcall T) s a) as [p|p]; [|discriminate]. destruct (peval (pcall T) s b) as [q|q]; [|discriminate].
      rewrite (IHa _ eq_refl), (IHb _ eq_refl). cbn in *. now inversion H.
    - destruct (peval (pcall T) s a) as [p|p]; [|discriminate]. destruct (peval (pcall T) s b) as [q|q]; [|discriminate].
      rewrite (IHa _ eq_refl), (IHb _ eq_refl). cbn in *. now inversion H.
    - destruct (peval (pcall T) s c) as [p|p]; [|discriminate]. rewrite (IHc _ eq_refl). cbn [bind] in H. destruct (truth p); auto.
    - destruct (peval (pcall T) s a) as [p|p]; [|discriminate]. rewrite (IHa _ eq_refl). cbn [bind] in H.
      destruct (CA f p) as (w & P & V). rewrite V. congruence.
  Qed.

  Lemma peval_err v s e x : ext v s -> forall k, ~ In underscore (reads e) -> wpe D T loc v e k -> peval (pcall T) s e = PE x ->
    In x (reads e) /\ s x = None /\ match loc x with Some i => D i = true | None => True end.
  Proof.
    intros E. induction e as [z'|y|a IHa b IHb|a IHa b IHb|c IHc a IHa b IHb|f a IHa]; intros k U W H; cbn [peval reads wpe] in *.
    - discriminate.
    - destruct (s y) eqn:S; [discriminate|]. inversion H; subst.
      destruct (pystring_eqb x [95%N]) eqn:X; [apply name_eqb_eq in X; exfalso; apply U; left; exact X|].
      split; [left; reflexivity|]. split; [exact S|exact (proj1 W)].
    - assert (Ua : ~ In underscore (reads a)) by (intros X; apply U; apply in_or_app; auto).
      assert (Ub : ~ In underscore (reads b)) by (intros X; apply U; apply in_or_app; auto).
      destruct (peval (pcall T) s a) as [p|p] eqn:A.
      + destruct (peval (pcall T) s b) as [q|q] eqn:B; [discriminate|]. inversion H; subst.
        apply wpe_val in W; [|exact Ua]. destruct (IHb _ Ub W eq_refl) as (I & R). split; [apply in_or_app; auto|exact R].
      + inversion H; subst. destruct (IHa _ Ua W eq_refl) as (I & R). split; [apply in_or_app; auto|exact R].
    - assert (Ua : ~ In underscore (reads a)) by (intros X; apply U; apply in_or_app; auto).
      assert (Ub : ~ In underscore (reads b)) by (intros X; apply U; apply in_or_app; auto).
      destruct (peval (pcall T) s a) as [p|p] eqn:A.
      + destruct (peval (pcall T) s b) as [q|q] eqn:B; [discriminate|]. inversion H; subst.
        apply wpe_val in W; [|exact Ua]. destruct (IHb _ Ub W eq_refl) as (I & R). split; [apply in_or_app; auto|exact R].
      + inversion H; subst. destruct (IHa _ Ua W eq_refl) as (I & R). split; [apply in_or_app; auto|exact R].
    - assert (Uc : ~ In underscore (reads c)) by (intros X; apply U; apply in_or_app; auto).
      assert (Ua : ~ In underscore (reads a)) by (intros X; apply U; apply in_or_app; right; apply in_or_app; auto).
      assert (Ub : ~ In underscore (reads b)) by (intros X; apply U; apply in_or_app; right; apply in_or_app; auto).
      destruct (peval (pcall T) s c) as [p|p] eqn:C.
      + apply wpe_val in W; [|exact Uc]. rewrite (peval_veval v s c p E C) in W. cbn [bind] in H. destruct (truth p).
        * destruct (IHa _ Ua W H) as (I & R). split; [apply in_or_app; right; apply in_or_app; auto|exact R].
        * destruct (IHb _ Ub W H) as (I & R). split; [apply in_or_app; right; apply in_or_app; auto|exact R].
      + inversion H; subst. destruct (IHc _ Uc W eq_refl) as (I & R). split; [apply in_or_app; auto|exact R].
    - destruct (peval (pcall T) s a) as [p|p] eqn:A; [|inversion H; subst; exact (IHa _ U W eq_refl)].
      cbn [bind] in H. destruct (CA f p) as (w & P & V). congruence.
  Qed.

  Lemma wpe_pv v s e k z : ext v s -> ~ In underscore (reads e) -> wpe D T loc v e k -> peval (pcall T) s e = PV z -> k (Some z).
  Proof. intros E U W P. apply wpe_val in W; [|exact U]. now rewrite (peval_veval v s e z E P) in W. Qed.
End Expr.

(** ** Methods *)

Definition store_of (o : outcome) : store := match o with ODone s | OErr s _ => s end.

Scheme exec_mind := Induction for exec Sort Prop
  with iter_mind := Induction for iter Sort Prop.
Combined Scheme exec_iter_ind from exec_mind, iter_mind.

Lemma set_grows (s : store) x z y : s y <> None -> set s x (Some z) y <> None.
Proof. intros H. destruct (name_dec x y) as [->|N]; [rewrite set_same; discriminate|rewrite set_other; auto]. Qed.

Section Mono.
  Variable T : table.
  Lemma grows :
    (forall s st o, exec T s st o -> plain s -> forall x, st x <> None -> store_of o x <> None) /\
    (forall x b i n st o, iter T x b i n st o -> plain b -> forall y, st y <> None -> store_of o y <> None).
  Proof.
    apply (exec_iter_ind T (fun s st o _ => plain s -> forall x, st x <> None -> store_of o x <> None)
      (fun x b i n st o _ => plain b -> forall y, st y <> None -> store_of o y <> None));
      intros; cbn [plain store_of] in *; unfold bump in *; auto using set_grows; try contradiction.
    - destruct H1. auto.
    - destruct H0. auto.
    - destruct H0 as (_ & ? & ?). destruct (truth z); auto.
    - apply H0; auto. apply H; [|assumption]. destruct H1. assumption.
    - destruct H0. auto.
    - destruct H0. auto.
  Qed.
End Mono.

Section Method.
  Variable D : N -> bool.
  Variable T : table.
  Hypothesis CA : calls_agree T.
  Hypothesis FI : forall f z i, In i (vfacts T f z) -> D i = true.
  Variable loc : name -> option N.
  Variable All : list name.

  Definition dgood (st : store) : Prop :=
    forall y, In y All -> st y <> None -> match loc y with Some i => D i = true | None => True end.

  Definition fails (x : name) (st : store) : Prop :=
    In x All /\ x <> underscore /\ st x = None /\ match loc x with Some i => D i = true | None => True end.

  Definition concl (xs : list name) (q : venv -> Prop) (v : venv) (o : outcome) : Prop :=
    match o with
    | ODone st => exists v', ext v' st /\ same_outside xs v v' /\ q v'
    | OErr st x => fails x st
    end.

  Lemma dgood_down st st' : (forall x, st x <> None -> st' x <> None) -> dgood st' -> dgood st.
  Proof. intros M G y I S. exact (G y I (M y S)). Qed.

  Lemma same_refl xs (v : venv) : same_outside xs v v.
  Proof. intros x _. reflexivity. Qed.
  Lemma same_trans xs (v1 v2 v3 : venv) : same_outside xs v1 v2 -> same_outside xs v2 v3 -> same_outside xs v1 v3.
  Proof. intros A B x N. rewrite (B x N). exact (A x N). Qed.
  Lemma same_incl xs ys (v v' : venv) : (forall x, In x xs -> In x ys) -> same_outside xs v v' -> same_outside ys v v'.
  Proof. intros I S x N. apply S. auto. Qed.
  Lemma same_set xs (v : venv) x z : In x xs -> same_outside xs v (set v x z).
  Proof. intros I y N. apply set_other. congruence. Qed.

  Lemma defining_ok x k st : dgood st -> In x All -> st x <> None -> defining D loc x k -> k.
  Proof. intros G I S H. unfold defining in H. specialize (G x I S). destruct (loc x); auto. Qed.

  Definition sub_all (l : list name) : Prop := forall x, In x l -> In x All.

  Lemma err_case v st e x k : ext v st -> sub_all (reads e) -> ~ In underscore (reads e) -> wpe D T loc v e k ->
    peval (pcall T) st e = PE x -> fails x st.
  Proof.
    intros E S U W P. destruct (peval_err D T CA FI loc v st e x E k U W P) as (I & N & L). split; [auto|]. split; [intros ->; contradiction|split; auto].
  Qed.

  Definition while_q c inv t (b : stmt) (q : venv -> Prop) (v : venv) : Prop :=
    forall v', same_outside (assigned b) v v' -> (forall x, In x t -> v' x <> None) ->
      wpe D T loc v' inv (fun r => (exists z, r = Some z /\ truth z = true) ->
        wpe D T loc v' c (fun r => match r with
          | Some z => if truth z then wp D T loc b (fun v => (forall x, In x t -> v x <> None) /\
              wpe D T loc v inv (fun r => exists z, r = Some z /\ truth z = true)) v' else q v'
          | None => False end)).

  Definition for_check x inv (t : list name) n i err v : Prop :=
    iter_inv D loc x n i err v /\ (forall x, In x t -> v x <> None) /\
    wpe D T loc v inv (fun r => exists z, r = Some z /\ truth z = true).

  Lemma simulation :
    (forall s st o, exec T s st o -> forall v q, ext v st -> plain s -> sub_all (names s) -> dgood (store_of o) ->
       wp D T loc s q v -> concl (assigned s) q v o) /\
    (forall x b i m st o, iter T x b i m st o -> forall inv t v0 v q, ext v st -> plain b -> ~ In underscore (reads inv) ->
       sub_all (x :: names b) -> dgood (store_of o) -> (0 <= i)%Z -> same_outside (x :: assigned b) v0 v ->
       next D loc x (Z.max 0 m) i v (for_check x inv t (Z.max 0 m)) ->
       (forall v' i err, same_outside (x :: assigned b) v0 v' -> iter_inv D loc x (Z.max 0 m) i err v' ->
          (forall x, In x t -> v' x <> None) ->
          wpe D T loc v' inv (fun r => (exists z, r = Some z /\ truth z = true) ->
            if err then q v' else wp D T loc b (fun v2 => next D loc x (Z.max 0 m) i v2 (for_check x inv t (Z.max 0 m))) v')) ->
       concl (x :: assigned b) q v0 o).
  Proof.
    apply (exec_iter_ind T
      (fun s st o _ => forall v q, ext v st -> plain s -> sub_all (names s) -> dgood (store_of o) ->
         wp D T loc s q v -> concl (assigned s) q v o)
      (fun x b i m st o _ => forall inv t v0 v q, ext v st -> plain b -> ~ In underscore (reads inv) ->
         sub_all (x :: names b) -> dgood (store_of o) -> (0 <= i)%Z -> same_outside (x :: assigned b) v0 v ->
         next D loc x (Z.max 0 m) i v (for_check x inv t (Z.max 0 m)) ->
         (forall v' i err, same_outside (x :: assigned b) v0 v' -> iter_inv D loc x (Z.max 0 m) i err v' ->
            (forall x, In x t -> v' x <> None) ->
            wpe D T loc v' inv (fun r => (exists z, r = Some z /\ truth z = true) ->
              if err then q v' else wp D T loc b (fun v2 => next D loc x (Z.max 0 m) i v2 (for_check x inv t (Z.max 0 m))) v')) ->
         concl (x :: assigned b) q v0 o)).
    - intros s v q E PL SA G W. cbn in *. exists v. split; [exact E|]. split; [apply same_refl|exact W].
    - intros x e s z P v q E PL SA G W. cbn [wp concl plain names store_of assigned] in *.
      pose proof (wpe_pv D T CA FI loc v s e _ z E PL W P) as K. cbv beta iota in K.
      assert (K2 : q (set v x (Some z))).
      { eapply defining_ok; [exact G|apply SA; left; reflexivity|rewrite set_same; discriminate|exact K]. }
      exists (set v x (Some z)). split; [now apply ext_set|]. split; [apply same_set; left; reflexivity|exact K2].
    - intros x e s y P v q E PL SA G W. cbn [wp concl plain names store_of] in *.
      eapply err_case; [exact E| |exact PL|exact W|exact P]. intros w I. apply SA. right. exact I.
    - intros x e s u z SX P v q E PL SA G W. cbn [wp concl plain names store_of assigned] in *.
      assert (Ue : ~ In underscore (reads e)) by (intros X; apply PL; right; exact X).
      pose proof (wpe_pv D T CA FI loc v s e _ z E Ue W P) as K. cbv beta iota in K. rewrite E, SX in K.
      assert (K2 : q (set v x (Some (u + z)%Z))).
      { eapply defining_ok; [exact G|apply SA; left; reflexivity|rewrite set_same; discriminate|exact K]. }
      exists (set v x (Some (u + z)%Z)). split; [now apply ext_set|]. split; [apply same_set; left; reflexivity|exact K2].
    - intros x e s SX v q E PL SA G W. exfalso. cbn [wp plain] in *.
      assert (Ue : ~ In underscore (reads e)) by (intros X; apply PL; right; exact X).
      apply (wpe_val D T FI) in W; [|exact Ue]. now rewrite E, SX in W.
    - intros x e s u y SX P v q E PL SA G W. cbn [wp concl plain names store_of] in *.
      assert (Ue : ~ In underscore (reads e)) by (intros X; apply PL; right; exact X).
      eapply err_case; [exact E| |exact Ue|exact W|exact P]. intros w I. apply SA. right. exact I.
    - intros a b s s1 o X1 IH1 X2 IH2 v q E (PL1 & PL2) SA G W. cbn [wp names assigned] in *.
      assert (SA1 : sub_all (names a)) by (intros y I; apply SA; apply in_or_app; auto).
      assert (SA2 : sub_all (names b)) by (intros y I; apply SA; apply in_or_app; auto).
      destruct (IH1 v _ E PL1 SA1 (dgood_down _ _ (proj1 (grows T) _ _ _ X2 PL2) G) W) as (v1 & E1 & S1 & W1).
      pose proof (IH2 v1 q E1 PL2 SA2 G W1) as C. destruct o as [s2|s2 x]; [|exact C].
      destruct C as (v2 & E2 & S2 & Q2). exists v2. split; [exact E2|]. split; [|exact Q2].
      eapply same_trans; [eapply same_incl; [|exact S1]|eapply same_incl; [|exact S2]]; intros y I; apply in_or_app; auto.
    - intros a b s s1 x X1 IH1 v q E (PL1 & PL2) SA G W. cbn [wp names] in *.
      assert (SA1 : sub_all (names a)) by (intros y I; apply SA; apply in_or_app; auto).
      exact (IH1 v _ E PL1 SA1 G W).
    - intros c a b s z o P X IH v q E (PL0 & PL1 & PL2) SA G W. cbn [wp names assigned] in *.
      pose proof (wpe_pv D T CA FI loc v s c _ z E PL0 W P) as K. cbv beta iota in K.
      destruct (truth z).
      + pose proof (IH v q E PL1 (fun y I => SA y (in_or_app _ _ _ (or_intror (in_or_app _ _ _ (or_introl I))))) G K) as C.
        destruct o as [s2|s2 x]; [|exact C]. destruct C as (v2 & E2 & S2 & Q2). exists v2. split; [exact E2|]. split; [|exact Q2].
        eapply same_incl; [|exact S2]. intros y I. apply in_or_app. auto.
      + pose proof (IH v q E PL2 (fun y I => SA y (in_or_app _ _ _ (or_intror (in_or_app _ _ _ (or_intror I))))) G K) as C.
        destruct o as [s2|s2 x]; [|exact C]. destruct C as (v2 & E2 & S2 & Q2). exists v2. split; [exact E2|]. split; [|exact Q2].
        eapply same_incl; [|exact S2]. intros y I. apply in_or_app. auto.
    - intros c a b s x P v q E (PL0 & PL1 & PL2) SA G W. cbn [wp concl names store_of] in *.
      eapply err_case; [exact E| |exact PL0|exact W|exact P]. intros w I. apply SA. apply in_or_app. auto.
    - intros c inv t b s z P TZ v q E (PL0 & PL1) SA G ((TY & IV) & H). cbn [names assigned concl] in *.
      assert (U1 : ~ In underscore (reads c)) by (intros X; apply PL0; apply in_or_app; auto).
      assert (U2 : ~ In underscore (reads inv)) by (intros X; apply PL0; apply in_or_app; auto).
      apply (wpe_val D T FI) in IV; [|exact U2].
      pose proof (wpe_val D T FI loc v inv _ U2 (H v (same_refl _ v) TY) IV) as K.
      pose proof (wpe_pv D T CA FI loc v s c _ z E U1 K P) as K2. cbv beta iota in K2. rewrite TZ in K2.
      exists v. split; [exact E|]. split; [apply same_refl|exact K2].
    - intros c inv t b s z s1 o P TZ X1 IH1 X2 IH2 v q E (PL0 & PL1) SA G ((TY & IV) & H).
      assert (U1 : ~ In underscore (reads c)) by (intros X; apply PL0; apply in_or_app; auto).
      assert (U2 : ~ In underscore (reads inv)) by (intros X; apply PL0; apply in_or_app; auto).
      apply (wpe_val D T FI) in IV; [|exact U2].
      pose proof (wpe_val D T FI loc v inv _ U2 (H v (same_refl _ v) TY) IV) as K.
      pose proof (wpe_pv D T CA FI loc v s c _ z E U1 K P) as K2. cbv beta iota in K2. rewrite TZ in K2.
      assert (SB : sub_all (names b)) by (intros y I; apply SA; cbn [names]; apply in_or_app; right; apply in_or_app; auto).
      assert (PW : plain (SWhile c inv t b)) by (split; assumption).
      destruct (IH1 v _ E PL1 SB (dgood_down _ _ (proj1 (grows T) _ _ _ X2 PW) G) K2) as (v1 & E1 & S1 & C1).
      assert (W1 : wp D T loc (SWhile c inv t b) q v1).
      { cbn [wp]. split; [exact C1|]. intros v' SV TV. apply H; [|exact TV]. eapply same_trans; [exact S1|exact SV]. }
      pose proof (IH2 v1 q E1 PW SA G W1) as C. cbn [assigned] in *. destruct o as [s2|s2 x]; [|exact C].
      destruct C as (v2 & E2 & S2 & Q2). exists v2. split; [exact E2|]. split; [eapply same_trans; [exact S1|exact S2]|exact Q2].
    - intros c inv t b s x P v q E (PL0 & PL1) SA G ((TY & IV) & H). cbn [concl store_of].
      assert (U1 : ~ In underscore (reads c)) by (intros X; apply PL0; apply in_or_app; auto).
      assert (U2 : ~ In underscore (reads inv)) by (intros X; apply PL0; apply in_or_app; auto).
      apply (wpe_val D T FI) in IV; [|exact U2].
      pose proof (wpe_val D T FI loc v inv _ U2 (H v (same_refl _ v) TY) IV) as K.
      eapply err_case; [exact E| |exact U1|exact K|exact P]. intros w I. apply SA. cbn [names]. apply in_or_app. auto.
    - intros c inv t b s z s1 x P TZ X1 IH1 v q E (PL0 & PL1) SA G ((TY & IV) & H).
      assert (U1 : ~ In underscore (reads c)) by (intros X; apply PL0; apply in_or_app; auto).
      assert (U2 : ~ In underscore (reads inv)) by (intros X; apply PL0; apply in_or_app; auto).
      apply (wpe_val D T FI) in IV; [|exact U2].
      pose proof (wpe_val D T FI loc v inv _ U2 (H v (same_refl _ v) TY) IV) as K.
      pose proof (wpe_pv D T CA FI loc v s c _ z E U1 K P) as K2. cbv beta iota in K2. rewrite TZ in K2.
      assert (SB : sub_all (names b)) by (intros y I; apply SA; cbn [names]; apply in_or_app; right; apply in_or_app; auto).
      exact (IH1 v _ E PL1 SB G K2).
    - intros x e inv t b s n o P X IH v q E (PL0 & PL1) SA G W. cbn [wp names] in W, SA.
      assert (U1 : ~ In underscore (reads e)) by (intros Y; apply PL0; apply in_or_app; auto).
      assert (U2 : ~ In underscore (reads inv)) by (intros Y; apply PL0; apply in_or_app; auto).
      pose proof (wpe_pv D T CA FI loc v s e _ n E U1 W P) as K. cbv beta iota zeta in K.
      assert (SB : sub_all (x :: names b)).
      { intros y [<-|I]; apply SA; [left; reflexivity|right; apply in_or_app; right; apply in_or_app; auto]. }
      cbn [assigned].
      (* the first element *)
      assert (N1 : next D loc x (Z.max 0 n) 0 v (for_check x inv t (Z.max 0 n)) /\
        (next D loc x (Z.max 0 n) 0 v (fun i err v1 => forall v' i err, same_outside (x :: assigned b) v1 v' -> iter_inv D loc x (Z.max 0 n) i err v' ->
            (forall x, In x t -> v' x <> None) ->
            wpe D T loc v' inv (fun r => (exists z, r = Some z /\ truth z = true) ->
              if err then q v' else wp D T loc b (fun v2 => next D loc x (Z.max 0 n) i v2 (for_check x inv t (Z.max 0 n))) v')))).
      { unfold next in *. destruct (0 <? Z.max 0 n)%Z; unfold defining in *; [destruct (loc x)|]; cbn [for_check]; split;
          try (intros DD; specialize (K DD)); apply K. }
      destruct N1 as (N1 & N2).
      eapply (IH inv t v v q E PL1 U2 SB G (Z.le_refl 0) (same_refl _ v) N1).
      intros v' i err SO II TY.
      assert (SX : same_outside (x :: assigned b) v v') by exact SO.
      unfold next in N2. destruct (0 <? Z.max 0 n)%Z eqn:LT.
      + assert (GX : forall k, defining D loc x k -> k).
        { intros k DK. inversion X; subst.
          - lia.
          - eapply defining_ok; [exact G|apply SB; left; reflexivity| |exact DK].
            eapply (proj2 (grows T)); [eassumption|exact PL1|]. change s1 with (store_of (ODone s1)).
            eapply (proj1 (grows T)); [eassumption|exact PL1|]. unfold bump. rewrite set_same. discriminate.
          - eapply defining_ok; [exact G|apply SB; left; reflexivity| |exact DK].
            eapply (proj1 (grows T)); [eassumption|exact PL1|]. unfold bump. rewrite set_same. discriminate. }
        apply GX in N2. apply N2; [|exact II|exact TY]. eapply same_trans; [|exact SO].
        intros y NI. symmetry. apply set_other. intros ->. apply NI. left. reflexivity.
      + apply N2; assumption.
    - intros x e inv t b s y P v q E (PL0 & PL1) SA G W. cbn [wp names concl store_of] in *.
      assert (U1 : ~ In underscore (reads e)) by (intros Y; apply PL0; apply in_or_app; auto).
      eapply err_case; [exact E| |exact U1|exact W|exact P]. intros w I. apply SA. right. apply in_or_app. auto.
    - intros x e p b r s z s1 w P X IH P2 v q E [].
    - intros x e p b r s y P v q E [].
    - intros x e p b r s z s1 y P X IH v q E [].
    - intros x e p b r s z s1 y P X IH P2 v q E [].
    - intros x b i m s LE inv t v0 v q E PL U SA G I0 S0 N H. cbn [concl].
      unfold next in N. assert ((i <? Z.max 0 m)%Z = false) as LT by (apply Z.ltb_ge; lia). rewrite LT in N.
      destruct N as (II & TY & IV). apply (wpe_val D T FI) in IV; [|exact U].
      pose proof (wpe_val D T FI loc v inv _ U (H v i true S0 II TY) IV) as K.
      exists v. split; [exact E|]. split; [exact S0|exact K].
    - intros x b i m s s1 o LT X1 IH1 X2 IH2 inv t v0 v q E PL U SA G I0 S0 N H.
      unfold next in N. assert ((i <? Z.max 0 m)%Z = true) as LT' by (apply Z.ltb_lt; lia). rewrite LT' in N.
      assert (GM : forall y, s1 y <> None -> store_of o y <> None) by exact (proj2 (grows T) _ _ _ _ _ _ X2 PL).
      apply (defining_ok x _ (store_of o) G) in N; [|apply SA; left; reflexivity|].
      2:{ apply GM. change s1 with (store_of (ODone s1)). eapply (proj1 (grows T)); [exact X1|exact PL|]. unfold bump. rewrite set_same. discriminate. }
      destruct N as (II & TY & IV). apply (wpe_val D T FI) in IV; [|exact U].
      assert (S1 : same_outside (x :: assigned b) v0 (set v x (Some i))).
      { eapply same_trans; [exact S0|]. apply same_set. left. reflexivity. }
      pose proof (wpe_val D T FI loc _ inv _ U (H _ (i + 1)%Z false S1 II TY) IV) as K. cbv beta iota in K.
      destruct (IH1 (set v x (Some i)) _ (ext_set v s x i E) PL (fun y I => SA y (or_intror I)) (dgood_down _ _ GM G) K) as (v2 & E2 & S2 & N2).
      eapply (IH2 inv t v0 v2 q E2 PL U SA G); [lia| |exact N2|exact H].
      eapply same_trans; [exact S1|]. eapply same_incl; [|exact S2]. intros y I. right. exact I.
    - intros x b i m s s1 y LT X1 IH1 inv t v0 v q E PL U SA G I0 S0 N H.
      unfold next in N. assert ((i <? Z.max 0 m)%Z = true) as LT' by (apply Z.ltb_lt; lia). rewrite LT' in N.
      apply (defining_ok x _ s1 G) in N; [|apply SA; left; reflexivity|].
      2:{ change s1 with (store_of (OErr s1 y)). eapply (proj1 (grows T)); [exact X1|exact PL|]. unfold bump. rewrite set_same. discriminate. }
      destruct N as (II & TY & IV). apply (wpe_val D T FI) in IV; [|exact U].
      assert (S1 : same_outside (x :: assigned b) v0 (set v x (Some i))).
      { eapply same_trans; [exact S0|]. apply same_set. left. reflexivity. }
      pose proof (wpe_val D T FI loc _ inv _ U (H _ (i + 1)%Z false S1 II TY) IV) as K. cbv beta iota in K.
      exact (IH1 (set v x (Some i)) _ (ext_set v s x i E) PL (fun z I => SA z (or_intror I)) G K).
  Qed.
End Method.
