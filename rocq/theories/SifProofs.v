(** Proofs about the probabilistic mode. *)
From Coq Require Import List ZArith Bool Arith Lia.
From Verif Require Import SifSpec SifModel.
Import ListNotations.

Scheme expr_mind := Induction for expr Sort Prop
with exprs_mind := Induction for exprs Sort Prop.
Combined Scheme expr_exprs_ind from expr_mind, exprs_mind.

Scheme stmt_mind := Induction for stmt Sort Prop
with cases_mind := Induction for cases Sort Prop.
Combined Scheme stmt_cases_ind from stmt_mind, cases_mind.

(** * Traces *)

(** The two traces differ at a position where both have an event. *)
Definition clash (a b : list event) : Prop :=
  exists p x y r1 r2, x <> y /\ a = p ++ x :: r1 /\ b = p ++ y :: r2.

Lemma clash_pre : forall p a b, clash a b -> clash (p ++ a) (p ++ b).
Proof.
  intros p a b (q & x & y & r1 & r2 & N & -> & ->).
  exists (p ++ q), x, y, r1, r2. rewrite <- !app_assoc. auto.
Qed.

Lemma clash_post : forall a b c d, clash a b -> clash (a ++ c) (b ++ d).
Proof.
  intros a b c d (q & x & y & r1 & r2 & N & -> & ->).
  exists q, x, y, (r1 ++ c), (r2 ++ d). rewrite <- !app_assoc. auto.
Qed.

Lemma clash_cons : forall e a b, clash a b -> clash (e :: a) (e :: b).
Proof. intros e a b H. exact (clash_pre [e] a b H). Qed.

Lemma clash_now : forall x y a b, x <> y -> clash (x :: a) (y :: b).
Proof. intros x y a b N. exists [], x, y, a, b. auto. Qed.

Lemma clash_ne : forall a b, clash a b -> a <> b.
Proof.
  intros a b (p & x & y & r1 & r2 & N & -> & ->) E.
  apply app_inv_head in E. injection E. intros _ E'. auto.
Qed.

(** * Basic facts about pairs *)

Definition inert (r : side) : Prop := match r with Some (Go, _) => False | _ => True end.

Lemma step1_inert : forall f r, inert r -> step1 f r = r.
Proof. intros f [[[] t]|]; simpl; intros H; try reflexivity; contradiction. Qed.

Lemma low_ok_inert : forall e a b, inert a -> low_ok e (a, b) = true.
Proof. intros e [[[] t]|] b; simpl; intros H; try reflexivity; contradiction. Qed.

Lemma forallb_inert : forall l a b, inert a -> forallb (fun e => low_ok e (a, b)) l = true.
Proof.
  induction l as [|e l IH]; intros a b H; [reflexivity|].
  cbn [forallb]. rewrite low_ok_inert by assumption. exact (IH a b H).
Qed.

Lemma sel_inert : forall c b r, inert r -> sel c b r = None.
Proof. intros c b [[[] t]|]; simpl; intros H; try reflexivity; contradiction. Qed.

Lemma merge_inert : forall c r a b, inert r -> merge c r a b = r.
Proof. intros c [[[] t]|] a b; simpl; intros H; try reflexivity; contradiction. Qed.

Lemma ploop_inert : forall c inv body n a b,
  (body (None, None) = Some (None, None)) ->
  inert a -> inert b -> ploop c inv body n (a, b) = Some (a, b).
Proof.
  intros c inv body n. induction n as [|n IH]; intros a b Hb Ha Hb'; cbn [ploop]; cbv zeta; cbn [fst snd];
    rewrite !sel_inert by assumption; cbn [fst snd].
  - cbn. rewrite !merge_inert by assumption. reflexivity.
  - rewrite Hb.
    cbn [fst snd go_on]. rewrite forallb_inert by exact Logic.I.
    rewrite IH by (auto; exact Logic.I). cbn [fst snd].
    rewrite !merge_inert by assumption. reflexivity.
Qed.

Lemma prod_inert : forall n s a b, inert a -> inert b -> prod n s (a, b) = Some (a, b).
Proof.
  intros n s. induction s; intros r1 r2 H1 H2; cbn [prod fst snd]; unfold both; cbn [fst snd];
    rewrite ?step1_inert by assumption; try reflexivity.
  - rewrite IHs1 by assumption. apply IHs2; assumption.
  - rewrite low_ok_inert by assumption. reflexivity.
  - rewrite !sel_inert by assumption.
    rewrite IHs1 by exact Logic.I. rewrite IHs2 by exact Logic.I. cbn [fst snd].
    rewrite !merge_inert by assumption. reflexivity.
  - rewrite forallb_inert by assumption.
    rewrite ploop_inert; [|apply IHs; exact Logic.I|assumption|assumption].
    cbn [fst snd].
    destruct r1 as [[[] ?]|]; destruct r2 as [[[] ?]|]; simpl in *; try contradiction; reflexivity.
  - rewrite IHs1 by assumption. cbn [fst snd].
    assert (E1 : caught_in r1 r1 catches = None)
      by (destruct r1 as [[[] ?]|]; simpl in *; try contradiction; reflexivity).
    assert (E2 : caught_in r2 r2 catches = None)
      by (destruct r2 as [[[] ?]|]; simpl in *; try contradiction; reflexivity).
    rewrite E1, E2, IHs2 by exact Logic.I. cbn [fst snd].
    destruct r1 as [[[] ?]|]; destruct r2 as [[[] ?]|]; simpl in *; try contradiction; reflexivity.
  - rewrite IHs1 by assumption. cbn [fst snd].
    assert (E1 : enter_fin r1 r1 = None)
      by (destruct r1 as [[[] ?]|]; simpl in *; try contradiction; reflexivity).
    assert (E2 : enter_fin r2 r2 = None)
      by (destruct r2 as [[[] ?]|]; simpl in *; try contradiction; reflexivity).
    rewrite E1, E2, IHs2 by exact Logic.I. cbn [fst snd].
    destruct r1 as [[[] ?]|]; destruct r2 as [[[] ?]|]; simpl in *; try contradiction; reflexivity.
Qed.

Notation go t := (Some (Go, t)).

Lemma prod_if : forall n c a b t1 t2,
  truth (tev t1 c) = truth (tev t2 c) ->
  prod n (TIf c a b) (go t1, go t2) =
  prod n (if truth (tev t1 c) then a else b) (go t1, go t2).
Proof.
  intros n c a b t1 t2 E. cbn [prod fst snd sel merge]. rewrite <- E.
  destruct (truth (tev t1 c)); cbn [Bool.eqb].
  - rewrite (prod_inert n b None None) by exact Logic.I.
    destruct (prod n a (go t1, go t2)) as [[x y]|]; reflexivity.
  - rewrite (prod_inert n a None None) by exact Logic.I.
    destruct (prod n b (go t1, go t2)) as [[x y]|]; reflexivity.
Qed.

Lemma prod_seq : forall n a b p,
  prod n (TSeq a b) p = match prod n a p with Some q => prod n b q | None => None end.
Proof. reflexivity. Qed.

Lemma prod_seq_skip : forall n a p, prod n (TSeq a TSkip) p = prod n a p.
Proof. intros n a p. rewrite prod_seq. destruct (prod n a p); reflexivity. Qed.

Lemma prod_tseq : forall n a b p, prod n (tseq a b) p = prod n (TSeq a b) p.
Proof.
  intros n a b p. destruct a; destruct b; try reflexivity; cbn [tseq];
  symmetry; apply prod_seq_skip.
Qed.

Lemma prod_ifbody : forall n c a b t1 t2,
  truth (tev t1 c) = truth (tev t2 c) ->
  prod n (match a, b with TSkip, TSkip => TSkip | _, _ => TIf c a b end) (go t1, go t2) =
  prod n (if truth (tev t1 c) then a else b) (go t1, go t2).
Proof.
  intros n c a b t1 t2 E. rewrite <- (prod_if n c a b t1 t2 E).
  destruct a; try reflexivity. destruct b; try reflexivity.
  rewrite prod_if by exact E. destruct (truth (tev t1 c)); reflexivity.
Qed.

Lemma veqb_spec : forall a b, veqb a b = true <-> a = b.
Proof.
  intros [x|c i|l] [y|d j|m]; cbn [veqb]; split; intros H; try discriminate.
  - apply Z.eqb_eq in H. congruence.
  - injection H as ->. apply Z.eqb_refl.
  - apply andb_true_iff in H. destruct H as [H1 H2].
    apply Nat.eqb_eq in H1, H2. congruence.
  - injection H as -> ->. rewrite !Nat.eqb_refl. reflexivity.
  - destruct (list_eq_dec Z.eq_dec l m); congruence.
  - injection H as ->. destruct (list_eq_dec Z.eq_dec m m); congruence.
Qed.

Lemma truth_of_bool : forall b, truth (of_bool b) = b.
Proof. intros []; reflexivity. Qed.

Lemma of_bool_inj : forall a b, of_bool a = of_bool b -> a = b.
Proof. intros [] []; cbn; intros H; try reflexivity; discriminate. Qed.

Lemma low_truth : forall x t1 t2,
  low_ok (XTruth x) (go t1, go t2) = Bool.eqb (truth (tev t1 x)) (truth (tev t2 x)).
Proof.
  intros x t1 t2. cbn [low_ok tev].
  destruct (truth (tev t1 x)), (truth (tev t2 x)); reflexivity.
Qed.

(** * Variables of the translator *)

Fixpoint xb (n : nat) (x : texpr) : Prop :=
  match x with
  | XVar _ | XInt _ => True
  | XTmp i => i < n
  | XOp _ a b => xb n a /\ xb n b
  | XIf c a b => xb n c /\ xb n a /\ xb n b
  | XBoolOp _ a l => xb n a /\ fold_right (fun x P => xb n x /\ P) True l
  | XNot a | XTruth a | XClass a | XLen a | XPure _ a | XMap _ a | XFil _ _ a | XTest _ a => xb n a
  end.

Definition xbs (n : nat) (l : list texpr) : Prop := fold_right (fun x P => xb n x /\ P) True l.

Section TexprInd.
  Variable P : texpr -> Prop.
  Hypothesis HVar : forall x, P (XVar x).
  Hypothesis HTmp : forall x, P (XTmp x).
  Hypothesis HInt : forall x, P (XInt x).
  Hypothesis HOp : forall o a b, P a -> P b -> P (XOp o a b).
  Hypothesis HIf : forall c a b, P c -> P a -> P b -> P (XIf c a b).
  Hypothesis HB : forall i a l, P a -> Forall P l -> P (XBoolOp i a l).
  Hypothesis HNot : forall a, P a -> P (XNot a).
  Hypothesis HTruth : forall a, P a -> P (XTruth a).
  Hypothesis HClass : forall a, P a -> P (XClass a).
  Hypothesis HLen : forall a, P a -> P (XLen a).
  Hypothesis HPure : forall p a, P a -> P (XPure p a).
  Hypothesis HMap : forall p a, P a -> P (XMap p a).
  Hypothesis HFil : forall p f a, P a -> P (XFil p f a).
  Hypothesis HTest : forall p a, P a -> P (XTest p a).
  Fixpoint texpr_ind' (x : texpr) : P x :=
    match x with
    | XVar x => HVar x
    | XTmp x => HTmp x
    | XInt x => HInt x
    | XOp o a b => HOp o a b (texpr_ind' a) (texpr_ind' b)
    | XIf c a b => HIf c a b (texpr_ind' c) (texpr_ind' a) (texpr_ind' b)
    | XBoolOp i a l => HB i a l (texpr_ind' a)
        ((fix go (l : list texpr) : Forall P l :=
            match l with [] => Forall_nil P | y :: l => Forall_cons y (texpr_ind' y) (go l) end) l)
    | XNot a => HNot a (texpr_ind' a)
    | XTruth a => HTruth a (texpr_ind' a)
    | XClass a => HClass a (texpr_ind' a)
    | XLen a => HLen a (texpr_ind' a)
    | XPure p a => HPure p a (texpr_ind' a)
    | XMap p a => HMap p a (texpr_ind' a)
    | XFil p f a => HFil p f a (texpr_ind' a)
    | XTest p a => HTest p a (texpr_ind' a)
    end.
End TexprInd.

(** t' has the same Python variables as t and the same translator variables below n *)
Definition ext (n : nat) (t t' : tstate) : Prop :=
  st_of t' = st_of t /\ wd_of t' = wd_of t /\ forall i, i < n -> tm_of t' i = tm_of t i.

Lemma ext_refl : forall n t, ext n t t.
Proof. intros n t. repeat split. Qed.

Lemma ext_trans : forall n t u v, ext n t u -> ext n u v -> ext n t v.
Proof.
  intros n t u v (A & B & C) (A' & B' & C'). repeat split; try congruence.
  intros i H. rewrite C', C by assumption. reflexivity.
Qed.

Lemma ext_le : forall n m t u, n <= m -> ext m t u -> ext n t u.
Proof.
  intros n m t u H (A & B & C). repeat split; try assumption. intros i Hi. apply C. lia.
Qed.

Lemma tev_ext : forall n t t' x, ext n t t' -> xb n x -> tev t' x = tev t x.
Proof.
  intros n t t' x (A & B & C). induction x using texpr_ind'; cbn [xb tev]; intros W;
    repeat match goal with H : _ /\ _ |- _ => destruct H end;
    rewrite ?IHx, ?IHx1, ?IHx2, ?IHx3 by assumption; try congruence; try reflexivity.
  - apply C. exact W.
  - f_equal. induction H; [reflexivity|]. cbn in H1. destruct H1.
    cbn [map]. rewrite H, IHForall by assumption. reflexivity.
Qed.

Lemma xb_le : forall n m x, n <= m -> xb n x -> xb m x.
Proof.
  intros n m x L. induction x using texpr_ind'; cbn [xb]; intros W;
    repeat match goal with H : _ /\ _ |- _ => destruct H end; auto; try lia.
  - split; [auto|]. induction H; [exact Logic.I|]. cbn in *. destruct H1. auto.
Qed.

Lemma xbs_le : forall n m l, n <= m -> xbs n l -> xbs m l.
Proof.
  intros n m l L. induction l; cbn; [auto|]. intros (A & B). split; [exact (xb_le _ _ _ L A)|].
  apply IHl. exact B.
Qed.

Lemma tevs_ext : forall n t t' l, ext n t t' -> xbs n l -> map (tev t') l = map (tev t) l.
Proof.
  intros n t t' l E. induction l; cbn; [reflexivity|]. intros (A & B).
  rewrite (tev_ext n t t' a E A). f_equal. apply IHl. exact B.
Qed.

Lemma xbs_app : forall n a b, xbs n (a ++ b) <-> xbs n a /\ xbs n b.
Proof.
  intros n a b. induction a; cbn; [tauto|]. unfold xbs in *. rewrite IHa. tauto.
Qed.

Lemma bounds :
  (forall e n s x n', tre e n = (s, x, n') -> n <= n' /\ xb n' x) /\
  (forall es,
    (forall n s xs n', trl es n = (s, xs, n') -> n <= n' /\ xbs n' xs) /\
    (forall b f pre n s xs n', trb b f pre es n = (s, xs, n') -> n <= n' /\ xbs n' xs)).
Proof.
  apply expr_exprs_ind; cbn [tre trl trb].
  - intros x n s y n' [= <- <- <-]. cbn. auto.
  - intros x n s y n' [= <- <- <-]. cbn. auto.
  - intros o a IHa b IHb n s x n'.
    destruct (tre a n) as [[sa xa] n1] eqn:Ea. destruct (tre b n1) as [[sb xb'] n2] eqn:Eb.
    intros [= <- <- <-]. destruct (IHa _ _ _ _ Ea), (IHb _ _ _ _ Eb).
    cbn. repeat split; [lia|exact (xb_le _ _ _ H1 H0)|assumption].
  - intros c IHc a IHa b IHb n s x n'.
    destruct (tre c n) as [[sc xc] n1] eqn:Ec. destruct (tre a n1) as [[sa xa] n2] eqn:Ea.
    destruct (tre b n2) as [[sb xb'] n3] eqn:Eb.
    intros [= <- <- <-]. destruct (IHc _ _ _ _ Ec), (IHa _ _ _ _ Ea), (IHb _ _ _ _ Eb).
    cbn. repeat split; [lia| | |assumption].
    + apply (xb_le n1); [lia|assumption].
    + apply (xb_le n2); [lia|assumption].
  - intros i e IHe es [_ IHb] n s x n'.
    destruct (tre e n) as [[sa xa] n1] eqn:Ea. destruct (trb i xa [] es n1) as [[sb xs] n2] eqn:Eb.
    intros [= <- <- <-]. destruct (IHe _ _ _ _ Ea), (IHb _ _ _ _ _ _ _ Eb).
    cbn. repeat split; [lia| |assumption]. exact (xb_le _ _ _ H1 H0).
  - intros o1 o2 a IHa b IHb c IHc n s x n'.
    destruct (tre a n) as [[sc xc] n1] eqn:Ec. destruct (tre b n1) as [[sa xa] n2] eqn:Ea.
    destruct (tre c n2) as [[sb xb'] n3] eqn:Eb.
    intros [= <- <- <-]. destruct (IHa _ _ _ _ Ec), (IHb _ _ _ _ Ea), (IHc _ _ _ _ Eb).
    cbn. repeat split; [lia| | | |assumption].
    + apply (xb_le n1); [lia|assumption].
    + apply (xb_le n2); [lia|assumption].
    + apply (xb_le n2); [lia|assumption].
  - intros f args [IH _] n s x n'. destruct (trl args n) as [[sa xs] n1] eqn:Ea.
    intros [= <- <- <-]. destruct (IH _ _ _ _ Ea). cbn. lia.
  - intros m r IHr args [IH _] n s x n'.
    destruct (tre r n) as [[sr xr] n1] eqn:Er. destruct (trl args n1) as [[sa xs] n2] eqn:Ea.
    intros [= <- <- <-]. destruct (IHr _ _ _ _ Er), (IH _ _ _ _ Ea). cbn. lia.
  - intros m r IHr a IHa n s x n'.
    destruct (tre r n) as [[sr xr] n1] eqn:Er. destruct (tre a n1) as [[sa xs] n2] eqn:Ea.
    intros [= <- <- <-]. destruct (IHr _ _ _ _ Er), (IHa _ _ _ _ Ea). cbn. lia.
  - intros p e IHe n s x n'. destruct (tre e n) as [[sr xr] n1] eqn:Er.
    intros [= <- <- <-]. destruct (IHe _ _ _ _ Er). cbn. auto.
  - intros p e IHe n s x n'. destruct (tre e n) as [[sr xr] n1] eqn:Er.
    intros [= <- <- <-]. destruct (IHe _ _ _ _ Er). cbn. auto.
  - intros q p e IHe n s x n'. destruct (tre e n) as [[sr xr] n1] eqn:Er.
    intros [= <- <- <-]. destruct (IHe _ _ _ _ Er). cbn. auto.
  - split; [intros n s xs n' [= <- <- <-]|intros b f pre n s xs n' [= <- <- <-]]; cbn; auto.
  - intros e IHe es [IH1 IH2]. split.
    + intros n s xs n'. destruct (tre e n) as [[sr xr] n1] eqn:Er.
      destruct (trl es n1) as [[sa xs'] n2] eqn:Ea. intros [= <- <- <-].
      destruct (IHe _ _ _ _ Er), (IH1 _ _ _ _ Ea). cbn.
      repeat split; [lia|exact (xb_le _ _ _ H1 H0)|assumption].
    + intros b f pre n s xs n'. destruct (tre e n) as [[sr xr] n1] eqn:Er.
      destruct (trb b f (pre ++ [xr]) es n1) as [[sa xs'] n2] eqn:Ea. intros [= <- <- <-].
      destruct (IHe _ _ _ _ Er), (IH2 _ _ _ _ _ _ _ Ea). cbn.
      repeat split; [lia|exact (xb_le _ _ _ H1 H0)|assumption].
Qed.
