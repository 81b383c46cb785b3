(** In the programs covered, the pair of runs follows the two Python runs, and a
    check fails exactly where they decide differently. *)
From Coq Require Import List ZArith Bool Arith Lia.
From Verif Require Import SifSpec SifModel SifProofs.
Import ListNotations.

Notation go t := (Some (Go, t)).

Ltac inv3 E :=
  apply pair_equal_spec in E; destruct E as [E <-];
  apply pair_equal_spec in E; destruct E as [<- <-].

Definition res (e : expr) (t : tstate) := eval (wd_of t) (st_of t) e (tk_of t).
Definition ress (e : exprs) (t : tstate) := evals (wd_of t) (st_of t) e (tk_of t).
Definition resb (i : bool) (v : value) (e : exprs) (t : tstate) :=
  evalb (wd_of t) (st_of t) i v e (tk_of t).

(** The pair (t1, t2) runs through s, keeping the Python variables and the
    translator's variables below n, and reaches Q; or a check fails and C holds. *)
Definition sim (N : nat) (sg : bool) (n : nat) (s : tstmt) (t1 t2 : tstate)
    (Q : tstate -> tstate -> Prop) (C : Prop) : Prop :=
  match prod N s (go t1, go t2) with
  | Some p => exists u1 u2, p = (go u1, go u2) /\ ext n t1 u1 /\ ext n t2 u2 /\ Q u1 u2
  | None => sg = true -> C
  end.

Definition sofar (i : bool) (f : texpr) (pre : list texpr) (t : tstate) : value :=
  join i (tev t f) (map (tev t) pre).

Definition sim_e (N : nat) (sg : bool) (e : expr) : Prop :=
  forall n s x n' t1 t2, good_expr sg e -> tre e n = (s, x, n') ->
  sim N sg n s t1 t2
    (fun u1 u2 => exists tr, res e t1 = (tev u1 x, tk_of u1, tr) /\ res e t2 = (tev u2 x, tk_of u2, tr))
    (clash (snd (res e t1)) (snd (res e t2))).

Definition sim_l (N : nat) (sg : bool) (es : exprs) : Prop :=
  forall n s xs n' t1 t2, good_exprs sg es -> trl es n = (s, xs, n') ->
  sim N sg n s t1 t2
    (fun u1 u2 => exists tr, ress es t1 = (map (tev u1) xs, tk_of u1, tr) /\
                             ress es t2 = (map (tev u2) xs, tk_of u2, tr))
    (clash (snd (ress es t1)) (snd (ress es t2))).

Definition sim_b (N : nat) (es : exprs) : Prop :=
  forall i f pre n s xs n' t1 t2, good_exprs false es -> trb i f pre es n = (s, xs, n') ->
  xb n f -> xbs n pre ->
  truth (sofar i f pre t1) = truth (sofar i f pre t2) ->
  sim N false n s t1 t2
    (fun u1 u2 => exists tr,
       resb i (sofar i f pre t1) es t1 = (sofar i f (pre ++ xs) u1, tk_of u1, tr) /\
       resb i (sofar i f pre t2) es t2 = (sofar i f (pre ++ xs) u2, tk_of u2, tr))
    True.

Lemma join_app : forall i v a b, join i v (a ++ b) = join i (join i v a) b.
Proof. intros. unfold join. apply fold_left_app. Qed.

Lemma join_stop : forall i l v, Bool.eqb (truth v) i = false -> join i v l = v.
Proof.
  intros i l v H. unfold join. induction l; cbn; [reflexivity|]. rewrite H. exact IHl.
Qed.

Lemma cond_truth : forall i f pre t,
  truth (tev t (operand_cond i f pre)) = Bool.eqb (truth (sofar i f pre t)) i.
Proof.
  intros i f pre t. unfold operand_cond, sofar.
  destruct i; cbn [tev]; rewrite !truth_of_bool;
    destruct (truth (join _ (tev t f) (map (tev t) pre))); reflexivity.
Qed.

Lemma sofar_ext : forall n t t' i f pre, ext n t t' -> xb n f -> xbs n pre ->
  sofar i f pre t' = sofar i f pre t.
Proof.
  intros n t t' i f pre E A B. unfold sofar.
  rewrite (tev_ext n t t' f E A), (tevs_ext n t t' pre E B). reflexivity.
Qed.

(** once an operand has decided the result, nothing more happens *)
Lemma trb_stop : forall es N i f pre n s xs n' t1 t2,
  trb i f pre es n = (s, xs, n') ->
  Bool.eqb (truth (sofar i f pre t1)) i = false ->
  Bool.eqb (truth (sofar i f pre t2)) i = false ->
  prod N s (go t1, go t2) = Some (go t1, go t2).
Proof.
  induction es as [|e es IH]; cbn [trb]; intros N i f pre n s xs n' t1 t2 E H1 H2.
  - injection E as <- <- <-. reflexivity.
  - destruct (tre e n) as [[s0 x] n1] eqn:E0.
    destruct (trb i f (pre ++ [x]) es n1) as [[s2 xs2] n2] eqn:E2.
    inv3 E.
    rewrite prod_tseq, prod_seq, prod_if by (rewrite !cond_truth; congruence).
    rewrite cond_truth, H1. cbn [prod].
    apply (IH N i f (pre ++ [x]) n1 s2 xs2 n2); [exact E2| |];
      unfold sofar in *; rewrite map_app, join_app, join_stop by assumption; assumption.
Qed.

Lemma comp_clash : forall l m : list Z, length l <> length m ->
  clash (map (fun _ => EvIf true) l ++ [EvIf false]) (map (fun _ => EvIf true) m ++ [EvIf false]).
Proof.
  induction l as [|a l IH]; intros [|b m] H; cbn in *.
  - contradiction.
  - apply clash_now. discriminate.
  - apply clash_now. discriminate.
  - apply clash_cons. apply IH. lia.
Qed.

Lemma comp_same : forall l m : list Z, length l = length m ->
  map (fun _ => EvIf true) l = map (fun _ => EvIf true) m.
Proof.
  induction l as [|a l IH]; intros [|b m] H; cbn in *; try discriminate; [reflexivity|].
  f_equal. apply IH. lia.
Qed.

Lemma pval_free : forall p v, test_free p -> peval p v = (pval p v, []).
Proof. intros [f|]; cbn; [reflexivity|contradiction]. Qed.

Lemma res_ext : forall n t t' e, ext n t t' ->
  eval (wd_of t) (st_of t) e (tk_of t') = res e t'.
Proof. intros n t t' e (A & B & _). unfold res. rewrite A, B. reflexivity. Qed.

Lemma ress_ext : forall n t t' e, ext n t t' ->
  evals (wd_of t) (st_of t) e (tk_of t') = ress e t'.
Proof. intros n t t' e (A & B & _). unfold ress. rewrite A, B. reflexivity. Qed.

Lemma resb_ext : forall n t t' i v e, ext n t t' ->
  evalb (wd_of t) (st_of t) i v e (tk_of t') = resb i v e t'.
Proof. intros n t t' i v e (A & B & _). unfold resb. rewrite A, B. reflexivity. Qed.

Lemma call_ext : forall n i f args t, n <= i -> ext n t (snd (call1 i f args t)).
Proof.
  intros n i f args t H. unfold call1. cbn. repeat split. cbn. intros j Hj. unfold upd.
  destruct (Nat.eqb_spec j i); [lia|reflexivity].
Qed.

Lemma sim_skip : forall N sg n t1 t2 (Q : tstate -> tstate -> Prop) C,
  Q t1 t2 -> sim N sg n TSkip t1 t2 Q C.
Proof.
  intros. unfold sim. cbn [prod]. exists t1, t2. repeat split; auto.
Qed.

Lemma sim_seq : forall N sg n s1 s2 t1 t2 Q1 (Q : tstate -> tstate -> Prop) (C1 C : Prop),
  sim N sg n s1 t1 t2 Q1 C1 ->
  (forall u1 u2, ext n t1 u1 -> ext n t2 u2 -> Q1 u1 u2 -> sim N sg n s2 u1 u2 Q C) ->
  (C1 -> C) ->
  sim N sg n (tseq s1 s2) t1 t2 Q C.
Proof.
  intros N sg n s1 s2 t1 t2 Q1 Q C1 C H1 H2 HC. unfold sim in *.
  rewrite prod_tseq, prod_seq.
  destruct (prod N s1 (go t1, go t2)) as [p|]; [|auto].
  destruct H1 as (u1 & u2 & -> & E1 & E2 & HQ).
  pose proof (H2 u1 u2 E1 E2 HQ) as H.
  destruct (prod N s2 (go u1, go u2)) as [p|]; [|auto].
  destruct H as (v1 & v2 & -> & F1 & F2 & HQ2).
  exists v1, v2. repeat split; auto; try (eapply ext_trans; eassumption);
    try (apply (ext_trans n _ u1); assumption); try (apply (ext_trans n _ u2); assumption).
Qed.

Lemma sim_le : forall N sg n m s t1 t2 Q C, n <= m -> sim N sg m s t1 t2 Q C -> sim N sg n s t1 t2 Q C.
Proof.
  intros N sg n m s t1 t2 Q C L H. unfold sim in *. destruct (prod N s (go t1, go t2)); [|auto].
  destruct H as (u1 & u2 & -> & E1 & E2 & HQ). exists u1, u2.
  split; [reflexivity|]. split; [exact (ext_le _ _ _ _ L E1)|]. split; [exact (ext_le _ _ _ _ L E2)|exact HQ].
Qed.

Lemma sim_weak : forall N sg n s t1 t2 (Q Q' : tstate -> tstate -> Prop) (C C' : Prop),
  sim N sg n s t1 t2 Q C ->
  (forall u1 u2, ext n t1 u1 -> ext n t2 u2 -> Q u1 u2 -> Q' u1 u2) -> (C -> C') ->
  sim N sg n s t1 t2 Q' C'.
Proof.
  intros N sg n s t1 t2 Q Q' C C' H HQ HC. unfold sim in *.
  destruct (prod N s (go t1, go t2)); [|auto].
  destruct H as (u1 & u2 & -> & E1 & E2 & H). exists u1, u2. repeat split; auto;
    first [apply E1 | apply E2].
Qed.

Lemma sim_low : forall N sg n e t1 t2 (Q : tstate -> tstate -> Prop) (C : Prop),
  (tev t1 e = tev t2 e -> Q t1 t2) -> (tev t1 e <> tev t2 e -> C) ->
  sim N sg n (TLow e) t1 t2 Q C.
Proof.
  intros N sg n e t1 t2 Q C HQ HC. unfold sim. cbn [prod low_ok].
  destruct (veqb (tev t1 e) (tev t2 e)) eqn:E.
  - apply veqb_spec in E. exists t1, t2. repeat split. auto.
  - intros _. apply HC. intros E'. apply veqb_spec in E'. congruence.
Qed.

Lemma sim_call : forall N sg n i f args t1 t2 (Q : tstate -> tstate -> Prop) C,
  n <= i -> Q (snd (call1 i f args t1)) (snd (call1 i f args t2)) ->
  sim N sg n (TCall i f args) t1 t2 Q C.
Proof.
  intros N sg n i f args t1 t2 Q C L HQ. unfold sim. cbn [prod]. unfold both. cbn [fst snd step1].
  exists (snd (call1 i f args t1)), (snd (call1 i f args t2)).
  split; [reflexivity|]. split; [apply call_ext; exact L|]. split; [apply call_ext; exact L|exact HQ].
Qed.

Lemma fst_eq : forall (r : value * nat * list event) v k t,
  r = (v, k, t) -> snd r = t.
Proof. intros r v k t ->. reflexivity. Qed.

Section Sim.
  Variable N : nat.
  Variable sg : bool.

  Lemma simEOp : forall o a b, sim_e N sg a -> sim_e N sg b -> sim_e N sg (EOp o a b).
  Proof.
    intros o a b IHa IHb n s x n' t1 t2 (Ga & Gb) E. cbn [tre] in E.
    destruct (tre a n) as [[sa xa] n1] eqn:Ea. destruct (tre b n1) as [[sb xb'] n2] eqn:Eb.
    inv3 E.
    destruct (proj1 bounds _ _ _ _ _ Ea) as [La Xa].
    eapply sim_seq; [exact (IHa n sa xa n1 t1 t2 Ga Ea)| |].
    - intros u1 u2 E1 E2 (tr & R1 & R2).
      apply (sim_le N sg n n1 _ _ _ _ _ La).
      eapply sim_weak; [exact (IHb n1 sb xb' n2 u1 u2 Gb Eb)| |].
      + intros v1 v2 F1 F2 (tr' & P1 & P2). exists (tr ++ tr').
        unfold res in *. cbn [eval tev]. rewrite R1, R2.
        rewrite (res_ext _ _ _ b E1), (res_ext _ _ _ b E2). unfold res. rewrite P1, P2.
        rewrite (tev_ext n1 u1 v1 xa F1 Xa), (tev_ext n1 u2 v2 xa F2 Xa). auto.
      + intros C. unfold res in *. cbn [eval]. rewrite R1, R2.
        rewrite (res_ext _ _ _ b E1), (res_ext _ _ _ b E2). unfold res.
        destruct (eval (wd_of u1) (st_of u1) b (tk_of u1)) as [[? ?] c1].
        destruct (eval (wd_of u2) (st_of u2) b (tk_of u2)) as [[? ?] c2].
        cbn [snd] in *. apply clash_pre. exact C.
    - unfold res. cbn [eval].
      destruct (eval (wd_of t1) (st_of t1) a (tk_of t1)) as [[? k1] c1].
      destruct (eval (wd_of t2) (st_of t2) a (tk_of t2)) as [[? k2] c2].
      destruct (eval (wd_of t1) (st_of t1) b k1) as [[? ?] ?].
      destruct (eval (wd_of t2) (st_of t2) b k2) as [[? ?] ?].
      cbn [snd]. apply clash_post.
  Qed.

  Definition tested (r : value * nat * list event) : list event :=
    snd r ++ [EvIf (truth (fst (fst r)))].

  Lemma sim_test : forall c, sim_e N sg c -> forall n sc xc n1 t1 t2,
    good_expr sg c -> tre c n = (sc, xc, n1) ->
    sim N sg n (tseq sc (TLow (XTruth xc))) t1 t2
      (fun u1 u2 => exists tr, res c t1 = (tev u1 xc, tk_of u1, tr) /\
         res c t2 = (tev u2 xc, tk_of u2, tr) /\ truth (tev u1 xc) = truth (tev u2 xc))
      (clash (tested (res c t1)) (tested (res c t2))).
  Proof.
    intros c IHc n sc xc n1 t1 t2 Gc Ec.
    eapply sim_seq; [exact (IHc n sc xc n1 t1 t2 Gc Ec)| |].
    - intros u1 u2 E1 E2 (tr & R1 & R2). apply sim_low; cbn [tev].
      + intros H. exists tr. apply of_bool_inj in H. auto.
      + intros H. unfold tested. rewrite R1, R2. cbn [fst snd].
        apply clash_pre, clash_now. congruence.
    - intros C. unfold tested. apply clash_post. exact C.
  Qed.

  Lemma simEIf : forall c a b, sim_e N sg c -> sim_e N sg a -> sim_e N sg b -> sim_e N sg (EIf c a b).
  Proof.
    intros c a b IHc IHa IHb n s x n' t1 t2 (Gc & Ga & Gb) E. cbn [tre] in E.
    destruct (tre c n) as [[sc xc] n1] eqn:Ec. destruct (tre a n1) as [[sa xa] n2] eqn:Ea.
    destruct (tre b n2) as [[sb xb'] n3] eqn:Eb.
    inv3 E.
    destruct (proj1 bounds _ _ _ _ _ Ec) as [Lc Xc].
    destruct (proj1 bounds _ _ _ _ _ Ea) as [La Xa].
    eapply sim_seq; [exact (sim_test c IHc n sc xc n1 t1 t2 Gc Ec)| |].
    - intros u1 u2 E1 E2 (tr & R1 & R2 & T).
      assert (T' : truth (tev u1 (XTruth xc)) = truth (tev u2 (XTruth xc)))
        by (cbn [tev]; rewrite !truth_of_bool; exact T).
      unfold sim. rewrite (prod_ifbody N (XTruth xc) sa sb u1 u2 T').
      cbn [tev]. rewrite truth_of_bool.
      unfold res in R1, R2 |- *. cbn [eval tev]. rewrite R1, R2, <- T.
      destruct (truth (tev u1 xc)) eqn:Tc.
      + rewrite (res_ext _ _ _ a E1), (res_ext _ _ _ a E2).
        match goal with |- match prod N sa _ with Some p => exists u3 u4, _ /\ _ /\ _ /\ @?Q u3 u4 | None => _ -> ?C end =>
          change (sim N sg n sa u1 u2 Q C) end.
        apply (sim_le N sg n n1 _ _ _ _ _ Lc).
        eapply sim_weak; [exact (IHa n1 sa xa n2 u1 u2 Ga Ea)| |].
        * intros v1 v2 F1 F2 (tr' & P1 & P2). exists (tr ++ EvIf true :: tr'). cbv beta.
          rewrite P1, P2, !truth_of_bool.
          rewrite (tev_ext n1 u1 v1 xc F1 Xc), (tev_ext n1 u2 v2 xc F2 Xc), <- T, Tc. auto.
        * destruct (res a u1) as [[? ?] ?]; destruct (res a u2) as [[? ?] ?].
          cbn [snd]. intros C. apply clash_pre, clash_cons. exact C.
      + rewrite (res_ext _ _ _ b E1), (res_ext _ _ _ b E2).
        match goal with |- match prod N sb _ with Some p => exists u3 u4, _ /\ _ /\ _ /\ @?Q u3 u4 | None => _ -> ?C end =>
          change (sim N sg n sb u1 u2 Q C) end.
        apply (sim_le N sg n n2); [lia|].
        eapply sim_weak; [exact (IHb n2 sb xb' n3 u1 u2 Gb Eb)| |].
        * intros v1 v2 F1 F2 (tr' & P1 & P2). exists (tr ++ EvIf false :: tr'). cbv beta.
          rewrite P1, P2, !truth_of_bool.
          rewrite (tev_ext n2 u1 v1 xc F1 (xb_le _ _ _ La Xc)),
                  (tev_ext n2 u2 v2 xc F2 (xb_le _ _ _ La Xc)), <- T, Tc. auto.
        * destruct (res b u1) as [[? ?] ?]; destruct (res b u2) as [[? ?] ?].
          cbn [snd]. intros C. apply clash_pre, clash_cons. exact C.
    - unfold res, tested. cbn [eval].
      destruct (eval (wd_of t1) (st_of t1) c (tk_of t1)) as [[v1 k1] c1].
      destruct (eval (wd_of t2) (st_of t2) c (tk_of t2)) as [[v2 k2] c2].
      destruct (if truth v1 then eval (wd_of t1) (st_of t1) a k1 else eval (wd_of t1) (st_of t1) b k1) as [[? ?] r1].
      destruct (if truth v2 then eval (wd_of t2) (st_of t2) a k2 else eval (wd_of t2) (st_of t2) b k2) as [[? ?] r2].
      cbn [fst snd]. intros C. apply (clash_post _ _ r1 r2) in C. rewrite <- !app_assoc in C. exact C.
  Qed.

  Lemma sim_fold : forall n s t1 t2 (Q : tstate -> tstate -> Prop) (C : Prop),
    sim N sg n s t1 t2 Q C ->
    match prod N s (go t1, go t2) with
    | Some p => exists u1 u2, p = (go u1, go u2) /\ ext n t1 u1 /\ ext n t2 u2 /\ Q u1 u2
    | None => sg = true -> C
    end.
  Proof. intros. assumption. Qed.

  Lemma simENil : sim_l N sg ENil.
  Proof.
    intros n s xs n' t1 t2 _ E. cbn [trl] in E. inv3 E. apply sim_skip. exists [].
    unfold ress. cbn [evals map]. auto.
  Qed.

  Lemma simECons : forall e es, sim_e N sg e -> sim_l N sg es -> sim_l N sg (ECons e es).
  Proof.
    intros a b IHa IHb n s x n' t1 t2 (Ga & Gb) E. cbn [trl] in E.
    destruct (tre a n) as [[sa xa] n1] eqn:Ea. destruct (trl b n1) as [[sb xb'] n2] eqn:Eb.
    inv3 E.
    destruct (proj1 bounds _ _ _ _ _ Ea) as [La Xa].
    eapply sim_seq; [exact (IHa n sa xa n1 t1 t2 Ga Ea)| |].
    - intros u1 u2 E1 E2 (tr & R1 & R2).
      apply (sim_le N sg n n1 _ _ _ _ _ La).
      eapply sim_weak; [exact (IHb n1 sb xb' n2 u1 u2 Gb Eb)| |].
      + intros v1 v2 F1 F2 (tr' & P1 & P2). exists (tr ++ tr').
        unfold res, ress in *. cbn [evals tev map]. rewrite R1, R2.
        rewrite (ress_ext _ _ _ b E1), (ress_ext _ _ _ b E2). unfold ress. rewrite P1, P2.
        rewrite (tev_ext n1 u1 v1 xa F1 Xa), (tev_ext n1 u2 v2 xa F2 Xa). auto.
      + intros C. unfold res, ress in *. cbn [evals]. rewrite R1, R2.
        rewrite (ress_ext _ _ _ b E1), (ress_ext _ _ _ b E2). unfold ress.
        destruct (evals (wd_of u1) (st_of u1) b (tk_of u1)) as [[? ?] c1].
        destruct (evals (wd_of u2) (st_of u2) b (tk_of u2)) as [[? ?] c2].
        cbn [snd] in *. apply clash_pre. exact C.
    - unfold res, ress. cbn [evals].
      destruct (eval (wd_of t1) (st_of t1) a (tk_of t1)) as [[? k1] c1].
      destruct (eval (wd_of t2) (st_of t2) a (tk_of t2)) as [[? k2] c2].
      destruct (evals (wd_of t1) (st_of t1) b k1) as [[? ?] ?].
      destruct (evals (wd_of t2) (st_of t2) b k2) as [[? ?] ?].
      cbn [snd]. apply clash_post.
  Qed.

  Lemma simECall : forall f args, sim_l N sg args -> sim_e N sg (ECall f args).
  Proof.
    intros f args IH n s x n' t1 t2 G E. cbn [tre] in E. cbn [good_expr] in G.
    destruct (trl args n) as [[sa xs] n1] eqn:Ea. inv3 E.
    destruct (proj1 (proj2 bounds args) _ _ _ _ Ea) as [La Xa].
    eapply sim_seq; [exact (IH n sa xs n1 t1 t2 G Ea)| |].
    - intros u1 u2 E1 E2 (tr & R1 & R2). apply sim_call; [exact La|].
      exists (tr ++ [EvCall f]). unfold res, ress in *. cbn [eval]. rewrite R1, R2.
      unfold call1. cbn [snd tev tk_of tm_of]. unfold upd. rewrite Nat.eqb_refl.
      destruct E1 as (_ & -> & _), E2 as (_ & -> & _). auto.
    - unfold res, ress. cbn [eval].
      destruct (evals (wd_of t1) (st_of t1) args (tk_of t1)) as [[? k1] c1].
      destruct (evals (wd_of t2) (st_of t2) args (tk_of t2)) as [[? k2] c2].
      cbn [snd]. apply clash_post.
  Qed.

  (** two evaluations of the same arguments have equal or clashing traces *)
  Lemma args_cmp : forall es, sim_l N true es -> good_exprs true es -> forall t1 t2,
    snd (ress es t1) = snd (ress es t2) \/ clash (snd (ress es t1)) (snd (ress es t2)).
  Proof.
    intros es IH G t1 t2. destruct (trl es 0) as [[s xs] n'] eqn:E.
    pose proof (IH 0 s xs n' t1 t2 G E) as H. unfold sim in H.
    destruct (prod N s (go t1, go t2)).
    - destruct H as (u1 & u2 & _ & _ & _ & tr & -> & ->). left. reflexivity.
    - right. auto.
  Qed.

  Lemma simEMeth : forall m r args, sim_e N sg r -> sim_l N sg args -> sim_e N sg (EMeth m r args).
  Proof.
    intros m r args IHr IH n s x n' t1 t2 (Gr & G) E. cbn [tre] in E.
    destruct (tre r n) as [[sr xr] n1] eqn:Er. destruct (trl args n1) as [[sa xs] n2] eqn:Ea. inv3 E.
    destruct (proj1 bounds _ _ _ _ _ Er) as [Lr Xr].
    destruct (proj1 (proj2 bounds args) _ _ _ _ Ea) as [La Xa].
    set (goal_c := clash (snd (res (EMeth m r args) t1)) (snd (res (EMeth m r args) t2))).
    assert (CR : clash (snd (res r t1)) (snd (res r t2)) -> goal_c).
    { unfold goal_c, res. cbn [eval].
      destruct (eval (wd_of t1) (st_of t1) r (tk_of t1)) as [[? k1] c1].
      destruct (eval (wd_of t2) (st_of t2) r (tk_of t2)) as [[? k2] c2].
      destruct (evals (wd_of t1) (st_of t1) args k1) as [[? ?] ?].
      destruct (evals (wd_of t2) (st_of t2) args k2) as [[? ?] ?].
      cbn [snd]. apply clash_post. }
    assert (S1 : sim N sg n (tseq sr (TLow (XClass xr))) t1 t2
      (fun u1 u2 => exists tr, res r t1 = (tev u1 xr, tk_of u1, tr) /\
          res r t2 = (tev u2 xr, tk_of u2, tr) /\ cls (tev u1 xr) = cls (tev u2 xr)) (sg = true -> goal_c)).
    { eapply sim_seq; [exact (IHr n sr xr n1 t1 t2 Gr Er)| |intros C _; exact (CR C)].
      intros u1 u2 E1 E2 (tr & R1 & R2). apply sim_low; cbn [tev].
      - intros H. injection H as H. exists tr. auto.
      - intros H Hs. assert (Hsg : sg = true) by exact Hs. revert IH G. rewrite Hsg. intros IH G.
        unfold goal_c, res in *. cbn [eval]. rewrite R1, R2.
        rewrite (ress_ext _ _ _ args E1), (ress_ext _ _ _ args E2).
        destruct (args_cmp args IH G u1 u2) as [Q|Q];
          destruct (ress args u1) as [[? ?] c1]; destruct (ress args u2) as [[? ?] c2]; cbn [snd] in *.
        + subst c2. apply clash_pre, clash_pre, clash_now. congruence.
        + apply clash_pre, clash_post. exact Q. }
    assert (S2 : sim N sg n (tseq (tseq sr (TLow (XClass xr))) sa) t1 t2
      (fun u1 u2 => exists tr tr' k1 k2, res r t1 = (tev u1 xr, k1, tr) /\
          res r t2 = (tev u2 xr, k2, tr) /\ cls (tev u1 xr) = cls (tev u2 xr) /\
          evals (wd_of t1) (st_of t1) args k1 = (map (tev u1) xs, tk_of u1, tr') /\
          evals (wd_of t2) (st_of t2) args k2 = (map (tev u2) xs, tk_of u2, tr')) (sg = true -> goal_c)).
    { eapply sim_seq; [exact S1| |intros C; exact C].
      intros u1 u2 E1 E2 (tr & R1 & R2 & K).
      apply (sim_le N sg n n1 _ _ _ _ _ Lr).
      eapply sim_weak; [exact (IH n1 sa xs n2 u1 u2 G Ea)| |].
      - intros v1 v2 F1 F2 (tr' & P1 & P2). exists tr, tr', (tk_of u1), (tk_of u2).
        rewrite (tev_ext n1 u1 v1 xr F1 Xr), (tev_ext n1 u2 v2 xr F2 Xr).
        rewrite (ress_ext _ _ _ args E1), (ress_ext _ _ _ args E2). auto.
      - intros C _. unfold goal_c, res in *. cbn [eval]. rewrite R1, R2.
        rewrite (ress_ext _ _ _ args E1), (ress_ext _ _ _ args E2).
        destruct (ress args u1) as [[? ?] c1]; destruct (ress args u2) as [[? ?] c2]; cbn [snd] in *.
        apply clash_pre, clash_post. exact C. }
    unfold sim. apply sim_fold in S2.
    rewrite prod_tseq, prod_seq. destruct (prod N _ (go t1, go t2)); [|auto].
    destruct S2 as (u1 & u2 & -> & E1 & E2 & (tr & tr' & k1 & k2 & R1 & R2 & K & P1 & P2)).
    cbn [prod]. unfold both. cbn [fst snd step1].
    exists (snd (call1 n2 m (xr :: xs) u1)), (snd (call1 n2 m (xr :: xs) u2)).
    split; [reflexivity|].
    split; [apply (ext_trans n _ u1 _ E1); apply call_ext; lia|].
    split; [apply (ext_trans n _ u2 _ E2); apply call_ext; lia|].
    exists (tr ++ tr' ++ [EvClass (cls (tev u1 xr)); EvCall m]).
    unfold res in *. cbn [eval]. rewrite R1, R2, P1, P2, K.
    unfold call1. cbn [snd tev tk_of tm_of map]. unfold upd. rewrite Nat.eqb_refl.
    destruct E1 as (_ & -> & _), E2 as (_ & -> & _). auto.
  Qed.

  Lemma simEPure : forall p e, sim_e N sg e -> sim_e N sg (EPure p e).
  Proof.
    intros p e IH n s x n' t1 t2 (Gp & G) E. cbn [tre] in E.
    destruct (tre e n) as [[sa xa] n1] eqn:Ea. inv3 E.
    eapply sim_weak; [exact (IH n sa xa n1 t1 t2 G Ea)| |].
    - intros u1 u2 _ _ (tr & R1 & R2). exists (tr ++ []). unfold res in *. cbn [eval].
      rewrite R1, R2, !pval_free by assumption. auto.
    - unfold res. cbn [eval].
      destruct (eval (wd_of t1) (st_of t1) e (tk_of t1)) as [[v1 k1] c1].
      destruct (eval (wd_of t2) (st_of t2) e (tk_of t2)) as [[v2 k2] c2].
      rewrite !pval_free by assumption. cbn [snd]. apply clash_post.
  Qed.

  Lemma simEComp : forall f e, sim_e N sg e -> sim_e N sg (EComp f e).
  Proof.
    intros f e IH n s x n' t1 t2 G E. cbn [tre] in E. cbn [good_expr] in G.
    destruct (tre e n) as [[sa xa] n1] eqn:Ea. inv3 E.
    eapply sim_seq; [exact (IH n sa xa n1 t1 t2 G Ea)| |].
    - intros u1 u2 _ _ (tr & R1 & R2). apply sim_low; cbn [tev]; intros H;
        unfold res in *; cbn [eval]; rewrite R1, R2.
      + assert (L : length (elems (tev u1 xa)) = length (elems (tev u2 xa))).
        { injection H as H. apply Nat2Z.inj. exact H. }
        exists (tr ++ map (fun _ => EvIf true) (elems (tev u2 xa)) ++ [EvIf false]).
        rewrite (comp_same _ _ L). auto.
      + cbn [snd]. apply clash_pre, comp_clash. congruence.
    - unfold res. cbn [eval].
      destruct (eval (wd_of t1) (st_of t1) e (tk_of t1)) as [[v1 k1] c1].
      destruct (eval (wd_of t2) (st_of t2) e (tk_of t2)) as [[v2 k2] c2].
      cbn [snd]. apply clash_post.
  Qed.
End Sim.

(** [and] and [or] *)
Lemma simb_nil : forall N, sim_b N ENil.
Proof.
  intros N i f pre n s xs n' t1 t2 _ E Xf Xp T. cbn [trb] in E. inv3 E.
  apply sim_skip. exists []. unfold resb. cbn [evalb]. rewrite app_nil_r. auto.
Qed.

Lemma simb_cons : forall N e es, sim_e N false e -> sim_b N es -> sim_b N (ECons e es).
Proof.
  intros N e es IHe IH i f pre n s xs n' t1 t2 (Ge & G) E Xf Xp T. cbn [trb] in E.
  destruct (tre e n) as [[s0 x] n1] eqn:E0.
  destruct (trb i f (pre ++ [x]) es n1) as [[s2 xs2] n2] eqn:E2. inv3 E.
  destruct (proj1 bounds _ _ _ _ _ E0) as [L0 X0].
  destruct (Bool.eqb (truth (sofar i f pre t1)) i) eqn:B.
  - eapply sim_seq with (C1 := True); [| |auto].
    + instantiate (1 := fun u1 u2 => exists tr, res e t1 = (tev u1 x, tk_of u1, tr) /\
         res e t2 = (tev u2 x, tk_of u2, tr) /\ truth (tev u1 x) = truth (tev u2 x)).
      unfold sim. rewrite prod_if by (rewrite !cond_truth; congruence).
      rewrite cond_truth, B.
      pose proof (sim_test N false e IHe n s0 x n1 t1 t2 Ge E0) as H.
      unfold sim in H. destruct (prod N _ (go t1, go t2)); [exact H|auto].
    + intros u1 u2 F1 F2 (tr & R1 & R2 & T').
      assert (S1 : sofar i f (pre ++ [x]) u1 = tev u1 x).
      { unfold sofar. rewrite map_app, join_app.
        fold (sofar i f pre u1). rewrite (sofar_ext n t1 u1 i f pre F1 Xf Xp).
        unfold join. cbn. rewrite B. reflexivity. }
      assert (S2 : sofar i f (pre ++ [x]) u2 = tev u2 x).
      { unfold sofar. rewrite map_app, join_app.
        fold (sofar i f pre u2). rewrite (sofar_ext n t2 u2 i f pre F2 Xf Xp).
        unfold join. cbn. rewrite <- T, B. reflexivity. }
      apply (sim_le N false n n1 _ _ _ _ _ L0).
      eapply sim_weak; [apply (IH i f (pre ++ [x]) n1 s2 xs2 n2 u1 u2 G E2)| |auto].
      * exact (xb_le _ _ _ L0 Xf).
      * apply xbs_app. split; [exact (xbs_le _ _ _ L0 Xp)|cbn; auto].
      * rewrite S1, S2. exact T'.
      * rewrite S1, S2. intros v1 v2 W1 W2 (tr' & P1 & P2).
        rewrite <- app_assoc in P1, P2. cbn [app] in P1, P2.
        exists (EvIf (truth (sofar i f pre t1)) :: tr ++ tr').
        unfold resb, res in *. cbn [evalb]. rewrite <- T, B, R1, R2.
        rewrite (resb_ext _ _ _ i _ es F1), (resb_ext _ _ _ i _ es F2).
        unfold resb. rewrite P1, P2. auto.
  - assert (B2 : Bool.eqb (truth (sofar i f pre t2)) i = false) by congruence.
    assert (P : prod N (tseq (TIf (operand_cond i f pre) (tseq s0 (TLow (XTruth x))) TSkip) s2)
                  (go t1, go t2) = Some (go t1, go t2)).
    { apply (trb_stop (ECons e es) N i f pre n _ (x :: xs2) n2); [|exact B|exact B2].
      cbn [trb]. rewrite E0, E2. reflexivity. }
    unfold sim. rewrite P. exists t1, t2. repeat split.
    exists [EvIf (truth (sofar i f pre t1))]. unfold resb. cbn [evalb]. rewrite <- T, B.
    unfold sofar in *. rewrite !map_app, !join_app.
    rewrite (join_stop i (map (tev t1) (x :: xs2)) _ B), (join_stop i (map (tev t2) (x :: xs2)) _ B2). auto.
Qed.

Lemma sim_false : forall N n s t1 t2 Q (C C' : Prop), sim N false n s t1 t2 Q C -> sim N false n s t1 t2 Q C'.
Proof.
  intros N n s t1 t2 Q C C' H. unfold sim in *. destruct (prod N s (go t1, go t2)); [exact H|discriminate].
Qed.

Lemma sim_exprs : forall N sg,
  (forall e, sim_e N sg e) /\ (forall es, sim_l N sg es /\ (sg = false -> sim_b N es)).
Proof.
  intros N sg. apply expr_exprs_ind.
  - intros x n s y n' t1 t2 _ E. cbn [tre] in E. inv3 E. apply sim_skip. exists []. auto.
  - intros x n s y n' t1 t2 _ E. cbn [tre] in E. inv3 E. apply sim_skip. exists []. auto.
  - intros. apply simEOp; assumption.
  - intros. apply simEIf; assumption.
  - intros i e IHe es [_ IHb] n s x n' t1 t2 (-> & Ge & Ges) E. cbn [tre] in E.
    destruct (tre e n) as [[s0 x0] n1] eqn:E0.
    destruct (trb i x0 [] es n1) as [[s2 xs2] n2] eqn:E2. inv3 E.
    destruct (proj1 bounds _ _ _ _ _ E0) as [L0 X0].
    apply sim_false with (C := True).
    eapply sim_seq with (C1 := True); [| |auto].
    + eapply sim_weak; [exact (sim_test N false e IHe n s0 x0 n1 t1 t2 Ge E0)|
        intros u1 u2 _ _ HQ; exact HQ|auto].
    + intros u1 u2 F1 F2 (tr & R1 & R2 & T).
      apply (sim_le N false n n1 _ _ _ _ _ L0).
      eapply sim_weak; [apply (IHb eq_refl i x0 [] n1 s2 xs2 n2 u1 u2 Ges E2 X0 Logic.I T)| |auto].
      intros v1 v2 W1 W2 (tr' & P1 & P2). exists (tr ++ tr').
      unfold res, sofar, join in *. cbn [eval tev map app fold_left] in *. rewrite R1, R2.
      rewrite (resb_ext _ _ _ i _ es F1), (resb_ext _ _ _ i _ es F2).
      rewrite P1, P2. auto.
  - cbn [good_expr]. intros o1 o2 a _ b _ c _ n s x n' t1 t2 [].
  - intros f args [IH _]. apply simECall; assumption.
  - intros m r IHr args [IH _]. apply simEMeth; assumption.
  - intros m r _ a _ n s x n' t1 t2 [].
  - intros. apply simEPure; assumption.
  - intros. apply simEComp; assumption.
  - intros p f e _ n s x n' t1 t2 [].
  - split; [apply simENil|intros _; apply simb_nil].
  - intros e IHe es [IH1 IH2]. split; [apply simECons; assumption|].
    intros ->. apply simb_cons; auto.
Qed.
