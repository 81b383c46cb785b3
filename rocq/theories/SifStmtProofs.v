(** The statements: the pair of runs follows the two Python runs. *)
From Coq Require Import List ZArith Bool Arith Lia.
From Verif Require Import SifSpec SifModel SifProofs SifSimProofs.
Import ListNotations.

Notation go t := (Some (Go, t)).

Definition keep (n : nat) (t u : tstate) : Prop :=
  wd_of u = wd_of t /\ forall i, i < n -> tm_of u i = tm_of t i.

Lemma keep_refl : forall n t, keep n t t.
Proof. split; auto. Qed.

Lemma keep_trans : forall n t u v, keep n t u -> keep n u v -> keep n t v.
Proof.
  intros n t u v (A & B) (A' & B'). split; [congruence|].
  intros i H. rewrite B', B by assumption. reflexivity.
Qed.

Lemma keep_le : forall n m t u, n <= m -> keep m t u -> keep n t u.
Proof. intros n m t u L (A & B). split; [exact A|]. intros i H. apply B. lia. Qed.

Lemma ext_keep : forall n t u, ext n t u -> keep n t u.
Proof. intros n t u (A & B & C). split; assumption. Qed.

Definition sims (N : nat) (sg : bool) (n : nat) (s : tstmt) (t1 t2 : tstate) (r1 r2 : result) : Prop :=
  match prod N s (go t1, go t2) with
  | Some p => exists m1 m2 u1 u2 tr, p = (Some (m1, u1), Some (m2, u2)) /\
      same_ending m1 m2 /\ keep n t1 u1 /\ keep n t2 u2 /\
      r1 = (m1, st_of u1, tk_of u1, tr) /\ r2 = (m2, st_of u2, tk_of u2, tr)
  | None => sg = true -> clash (trace r1) (trace r2)
  end.

Definition rr (N : nat) (s : stmt) (t : tstate) : result :=
  run N (wd_of t) s (st_of t) (tk_of t).

Definition sim_s (N : nat) (sg : bool) (s : stmt) : Prop :=
  forall n ts t1 t2, good sg s -> trs s n = Some ts -> sims N sg n ts t1 t2 (rr N s t1) (rr N s t2).

Lemma sims_pre : forall N sg n s1 s2 t1 t2 Q1 (C1 : Prop) r1 r2,
  sim N sg n s1 t1 t2 Q1 C1 ->
  (forall u1 u2, ext n t1 u1 -> ext n t2 u2 -> Q1 u1 u2 -> sims N sg n s2 u1 u2 r1 r2) ->
  (C1 -> clash (trace r1) (trace r2)) ->
  sims N sg n (tseq s1 s2) t1 t2 r1 r2.
Proof.
  intros N sg n s1 s2 t1 t2 Q1 C1 r1 r2 H1 H2 HC. unfold sim, sims in *.
  rewrite prod_tseq, prod_seq.
  destruct (prod N s1 (go t1, go t2)) as [p|]; [|auto].
  destruct H1 as (u1 & u2 & -> & E1 & E2 & HQ).
  pose proof (H2 u1 u2 E1 E2 HQ) as H.
  destruct (prod N s2 (go u1, go u2)) as [p|]; [|auto].
  destruct H as (m1 & m2 & v1 & v2 & tr & -> & SE & K1 & K2 & R1 & R2).
  exists m1, m2, v1, v2, tr. split; [reflexivity|]. split; [exact SE|].
  split; [exact (keep_trans _ _ _ _ (ext_keep _ _ _ E1) K1)|].
  split; [exact (keep_trans _ _ _ _ (ext_keep _ _ _ E2) K2)|]. auto.
Qed.

Lemma sims_le : forall N sg n m s t1 t2 r1 r2, n <= m ->
  sims N sg m s t1 t2 r1 r2 -> sims N sg n s t1 t2 r1 r2.
Proof.
  intros N sg n m s t1 t2 r1 r2 L H. unfold sims in *. destruct (prod N s (go t1, go t2)); [|auto].
  destruct H as (m1 & m2 & v1 & v2 & tr & -> & SE & K1 & K2 & R1 & R2).
  exists m1, m2, v1, v2, tr. repeat split; auto; try apply (keep_le _ _ _ _ L K1);
    try apply (keep_le _ _ _ _ L K2).
Qed.

Definition addt (tr : list event) (r : result) : result :=
  let '(m, s, k, t) := r in (m, s, k, tr ++ t).

(** the same decisions in front of both runs *)
Lemma sims_add : forall N sg n s t1 t2 r1 r2 tr, sims N sg n s t1 t2 r1 r2 ->
  sims N sg n s t1 t2 (addt tr r1) (addt tr r2).
Proof.
  intros N sg n s t1 t2 r1 r2 tr H. unfold sims in *. destruct (prod N s (go t1, go t2)).
  - destruct H as (m1 & m2 & v1 & v2 & t & -> & SE & K1 & K2 & -> & ->).
    exists m1, m2, v1, v2, (tr ++ t). cbn. auto 10.
  - intros Hs. pose proof (H Hs) as C. destruct r1 as [[[? ?] ?] ?], r2 as [[[? ?] ?] ?].
    cbn in *. apply clash_pre. exact C.
Qed.

Lemma rr_ext : forall n t u s N, ext n t u -> run N (wd_of t) s (st_of t) (tk_of u) = rr N s u.
Proof. intros n t u s N (A & B & _). unfold rr. rewrite A, B. reflexivity. Qed.

Lemma rr_keep : forall n t u s N, keep n t u -> run N (wd_of t) s (st_of u) (tk_of u) = rr N s u.
Proof. intros n t u s N (A & _). unfold rr. rewrite A. reflexivity. Qed.

Ltac modes SE :=
  match type of SE with same_ending ?a ?b => destruct a; destruct b; cbn [same_ending] in SE; try contradiction end.

Section Stmts.
  Variable N : nat.
  Variable sg : bool.

  Lemma e_sim : forall e, sim_e N sg e.
  Proof. exact (proj1 (sim_exprs N sg)). Qed.

  Lemma simSSeq : forall a b, sim_s N sg a -> sim_s N sg b -> sim_s N sg (SSeq a b).
  Proof.
    intros a b IHa IHb n ts t1 t2 (Ga & Gb) E. cbn [trs] in E.
    destruct (trs a n) as [ta|] eqn:Ea; [|discriminate].
    destruct (trs b n) as [tb|] eqn:Eb; [|discriminate]. injection E as <-.
    pose proof (IHa n ta t1 t2 Ga Ea) as Ha. unfold sims in *. rewrite prod_seq.
    destruct (prod N ta (go t1, go t2)) as [p|].
    - destruct Ha as (m1 & m2 & u1 & u2 & tr & -> & SE & K1 & K2 & R1 & R2).
      pose proof (IHb n tb u1 u2 Gb Eb) as Hb. unfold sims in Hb.
      unfold rr in *. cbn [run]. rewrite R1, R2.
      modes SE;
        try (rewrite prod_inert by exact Logic.I; eexists _, _, u1, u2, tr;
             split; [reflexivity|]; split; [exact SE|]; auto; fail).
      rewrite (rr_keep _ _ _ b N K1), (rr_keep _ _ _ b N K2).
      fold (rr N b u1) in Hb. fold (rr N b u2) in Hb.
      destruct (prod N tb (go u1, go u2)) as [p|].
      + destruct Hb as (m1 & m2 & v1 & v2 & tr' & -> & SE' & L1 & L2 & -> & ->).
        exists m1, m2, v1, v2, (tr ++ tr'). repeat split; auto;
          try apply (keep_trans _ _ _ _ K1 L1); try apply (keep_trans _ _ _ _ K2 L2).
      + intros Hs. pose proof (Hb Hs) as C.
        destruct (rr N b u1) as [[[? ?] ?] ?], (rr N b u2) as [[[? ?] ?] ?]. cbn in *.
        apply clash_pre. exact C.
    - intros Hs. pose proof (Ha Hs) as C. unfold rr in *. cbn [run].
      destruct (run N (wd_of t1) a (st_of t1) (tk_of t1)) as [[[m1 s1] k1] c1].
      destruct (run N (wd_of t2) a (st_of t2) (tk_of t2)) as [[[m2 s2] k2] c2].
      cbn [trace snd] in C.
      destruct (run N (wd_of t1) b s1 k1) as [[[? ?] ?] d1].
      destruct (run N (wd_of t2) b s2 k2) as [[[? ?] ?] d2].
      pose proof (clash_post _ _ [] d2 C). pose proof (clash_post _ _ d1 [] C).
      pose proof (clash_post _ _ d1 d2 C). rewrite app_nil_r in *.
      destruct m1, m2; cbn [trace snd]; assumption.
  Qed.

  (** statements that evaluate an expression and do one more thing *)
  Lemma sim_simple : forall e (last : texpr -> tstmt) (st : stmt)
      (f1 f2 : value -> store -> mode * store) (tr1 : value -> list event),
    (forall w s k, run N w st s k =
       let '(v, k1, t1) := eval w s e k in
       (fst (f1 v s), snd (f1 v s), k1, t1 ++ tr1 v)) ->
    f1 = f2 ->
    forall n s x n' t1 t2, good_expr sg e -> tre e n = (s, x, n') ->
    (forall u1 u2,
      sims N sg n (last x) u1 u2
        (fst (f1 (tev u1 x) (st_of u1)), snd (f1 (tev u1 x) (st_of u1)), tk_of u1, tr1 (tev u1 x))
        (fst (f1 (tev u2 x) (st_of u2)), snd (f1 (tev u2 x) (st_of u2)), tk_of u2, tr1 (tev u2 x))) ->
    sims N sg n (tseq s (last x)) t1 t2 (rr N st t1) (rr N st t2).
  Proof.
    intros e last st f1 f2 tr1 HR _ n s x n' t1 t2 G E HL. unfold rr. rewrite !HR.
    eapply sims_pre; [exact (e_sim e n s x n' t1 t2 G E)| |].
    - intros u1 u2 E1 E2 (tr & R1 & R2). unfold res in *. rewrite R1, R2.
      destruct E1 as (<- & _ & _), E2 as (<- & _ & _).
      exact (sims_add _ _ _ _ _ _ _ _ tr (HL u1 u2)).
    - unfold res. destruct (eval (wd_of t1) (st_of t1) e (tk_of t1)) as [[v1 k1] c1].
      destruct (eval (wd_of t2) (st_of t2) e (tk_of t2)) as [[v2 k2] c2].
      cbn [trace snd]. apply clash_post.
  Qed.

  Lemma sims_both : forall n s u1 u2 (m : tstate -> mode) (f : tstate -> tstate),
    prod N s (go u1, go u2) = Some (Some (m u1, f u1), Some (m u2, f u2)) ->
    same_ending (m u1) (m u2) -> keep n u1 (f u1) -> keep n u2 (f u2) ->
    forall r1 r2, r1 = (m u1, st_of (f u1), tk_of (f u1), []) ->
    r2 = (m u2, st_of (f u2), tk_of (f u2), []) -> sims N sg n s u1 u2 r1 r2.
  Proof.
    intros n s u1 u2 m f P SE K1 K2 r1 r2 -> ->. unfold sims. rewrite P.
    eexists _, _, _, _, []. split; [reflexivity|]. auto.
  Qed.

  Lemma simSAssign : forall x e, sim_s N sg (SAssign x e).
  Proof.
    intros x e n ts t1 t2 G E. cbn [trs] in E. destruct (tre e n) as [[s v] n'] eqn:Ee.
    injection E as <-.
    apply (sim_simple e (fun v => TAssign x v) (SAssign x e)
      (fun v s => (Go, upd s x v)) _ (fun _ => [])
      ltac:(intros; cbn [run]; destruct (eval w s0 e k) as [[? ?] ?]; cbn; rewrite app_nil_r; reflexivity)
      eq_refl n s v n' t1 t2 G Ee).
    intros u1 u2.
    apply (sims_both n _ u1 u2 (fun _ => Go)
      (fun t => mk (upd (st_of t) x (tev t v)) (tm_of t) (tk_of t) (wd_of t)));
      try reflexivity; try exact Logic.I; split; auto.
  Qed.

  Lemma tseq_skip : forall s, tseq s TSkip = s.
  Proof. intros []; reflexivity. Qed.

  Lemma simSExpr : forall e, sim_s N sg (SExpr e).
  Proof.
    intros e n ts t1 t2 G E. cbn [trs] in E. destruct (tre e n) as [[s v] n'] eqn:Ee.
    injection E as <-. rewrite <- (tseq_skip s).
    apply (sim_simple e (fun v => TSkip) (SExpr e)
      (fun v s => (Go, s)) _ (fun _ => [])
      ltac:(intros; cbn [run]; destruct (eval w s0 e k) as [[? ?] ?]; cbn; rewrite app_nil_r; reflexivity)
      eq_refl n s v n' t1 t2 G Ee).
    intros u1 u2.
    apply (sims_both n _ u1 u2 (fun _ => Go) (fun t => t));
      try reflexivity; try exact Logic.I; apply keep_refl.
  Qed.

  Lemma simSReturn : forall e, sim_s N sg (SReturn e).
  Proof.
    intros e n ts t1 t2 G E. cbn [trs] in E. destruct (tre e n) as [[s v] n'] eqn:Ee.
    injection E as <-.
    apply (sim_simple e (fun v => TReturn v) (SReturn e)
      (fun v s => (Ret v, s)) _ (fun _ => [])
      ltac:(intros; cbn [run]; destruct (eval w s0 e k) as [[? ?] ?]; cbn; rewrite app_nil_r; reflexivity)
      eq_refl n s v n' t1 t2 G Ee).
    intros u1 u2.
    apply (sims_both n _ u1 u2 (fun t => Ret (tev t v)) (fun t => t));
      try reflexivity; try exact Logic.I; apply keep_refl.
  Qed.

  Lemma simSRaise : forall e, sim_s N sg (SRaise e).
  Proof.
    intros e n ts t1 t2 G E. cbn [trs] in E. destruct (tre e n) as [[s v] n'] eqn:Ee.
    injection E as <-.
    apply (sim_simple e (fun v => TSeq (TLow (XClass v)) (TRaise v)) (SRaise e)
      (fun v s => (Exc (cls v), s)) _ (fun v => [EvExc (cls v)])
      ltac:(intros; cbn [run]; destruct (eval w s0 e k) as [[? ?] ?]; reflexivity)
      eq_refl n s v n' t1 t2 G Ee).
    intros u1 u2. unfold sims. rewrite prod_seq. cbn [prod low_ok tev veqb].
    rewrite Nat.eqb_refl, andb_true_r.
    destruct (Nat.eqb_spec (cls (tev u1 v)) (cls (tev u2 v))) as [Q|Q].
    - unfold both. cbn [fst snd step1].
      eexists _, _, _, _, _. split; [reflexivity|]. cbn [fst snd same_ending].
      rewrite Q. repeat split; auto.
    - intros _. cbn [trace snd]. apply clash_now. congruence.
  Qed.

  Lemma simSIf : forall e a b, sim_s N sg a -> sim_s N sg b -> sim_s N sg (SIf e a b).
  Proof.
    intros e a b IHa IHb n ts t1 t2 (Ge & Ga & Gb) E. cbn [trs] in E.
    destruct (tre e n) as [[s c] n1] eqn:Ee.
    destruct (trs a n1) as [ta|] eqn:Ea; [|discriminate].
    destruct (trs b n1) as [tb|] eqn:Eb; [|discriminate]. injection E as <-.
    destruct (proj1 bounds _ _ _ _ _ Ee) as [Le Xe].
    assert (P : forall p, prod N (tseq s (TSeq (TLow (XTruth c)) (TIf (XTruth c) ta tb))) p =
                          prod N (tseq (tseq s (TLow (XTruth c))) (TIf (XTruth c) ta tb)) p).
    { intros p. rewrite !prod_tseq, !prod_seq, prod_tseq, prod_seq.
      destruct (prod N s p); reflexivity. }
    cut (sims N sg n (tseq (tseq s (TLow (XTruth c))) (TIf (XTruth c) ta tb)) t1 t2
           (rr N (SIf e a b) t1) (rr N (SIf e a b) t2)).
    { unfold sims. rewrite P. auto. }
    eapply sims_pre; [exact (sim_test N sg e (e_sim e) n s c n1 t1 t2 Ge Ee)| |].
    - intros u1 u2 E1 E2 (tr & R1 & R2 & T).
      assert (T' : truth (tev u1 (XTruth c)) = truth (tev u2 (XTruth c)))
        by (cbn [tev]; rewrite !truth_of_bool; exact T).
      unfold rr, res in *. cbn [run]. rewrite R1, R2, <- T.
      unfold sims. rewrite (prod_if N _ ta tb u1 u2 T').
      cbn [tev]. rewrite truth_of_bool.
      destruct (truth (tev u1 c)).
      + rewrite (rr_ext _ _ _ a N E1), (rr_ext _ _ _ a N E2).
        apply (sims_le N sg n n1 _ _ _ _ _ Le).
        pose proof (sims_add _ _ _ _ _ _ _ _ (tr ++ [EvIf true]) (IHa n1 ta u1 u2 Ga Ea)) as H.
        destruct (rr N a u1) as [[[? ?] ?] ?], (rr N a u2) as [[[? ?] ?] ?].
        cbn [addt] in H. rewrite <- !app_assoc in H. exact H.
      + rewrite (rr_ext _ _ _ b N E1), (rr_ext _ _ _ b N E2).
        apply (sims_le N sg n n1 _ _ _ _ _ Le).
        pose proof (sims_add _ _ _ _ _ _ _ _ (tr ++ [EvIf false]) (IHb n1 tb u1 u2 Gb Eb)) as H.
        destruct (rr N b u1) as [[[? ?] ?] ?], (rr N b u2) as [[[? ?] ?] ?].
        cbn [addt] in H. rewrite <- !app_assoc in H. exact H.
    - unfold rr, res, tested. cbn [run].
      destruct (eval (wd_of t1) (st_of t1) e (tk_of t1)) as [[v1 k1] c1].
      destruct (eval (wd_of t2) (st_of t2) e (tk_of t2)) as [[v2 k2] c2].
      destruct (if truth v1 then _ else _) as [[[? ?] ?] r1].
      destruct (if truth v2 then _ else _) as [[[? ?] ?] r2].
      cbn [trace fst snd]. intros C. apply (clash_post _ _ r1 r2) in C.
      rewrite <- !app_assoc in C. exact C.
  Qed.

  Lemma simSTry : forall a p b, sim_s N sg a -> sim_s N sg b -> sim_s N sg (STry a p b).
  Proof.
    intros a p b IHa IHb n ts t1 t2 (Ga & Gb) E. cbn [trs] in E.
    destruct (trs a n) as [ta|] eqn:Ea; [|discriminate].
    destruct (trs b n) as [tb|] eqn:Eb; [|discriminate]. injection E as <-.
    pose proof (IHa n ta t1 t2 Ga Ea) as Ha. unfold sims in *. cbn [prod].
    destruct (prod N ta (go t1, go t2)) as [q|].
    - destruct Ha as (m1 & m2 & u1 & u2 & tr & -> & SE & K1 & K2 & R1 & R2).
      pose proof (IHb n tb u1 u2 Gb Eb) as Hb. unfold sims in Hb.
      unfold rr in *. cbn [run]. rewrite R1, R2.
      modes SE; cbn [fst snd caught_in caught];
        try (rewrite prod_inert by exact Logic.I; cbn [fst snd try_in after_try];
             eexists _, _, u1, u2, tr;
             split; [reflexivity|]; split; [exact SE|]; auto; fail).
      subst c0.
      rewrite (rr_keep _ _ _ b N K1), (rr_keep _ _ _ b N K2).
      fold (rr N b u1) in Hb. fold (rr N b u2) in Hb.
      destruct (p c) eqn:Pc.
      + destruct (prod N tb (go u1, go u2)) as [q|].
        * destruct Hb as (m1 & m2 & v1 & v2 & tr' & -> & SE' & L1 & L2 & -> & ->).
          cbn [fst snd try_in after_try]. rewrite Pc.
          exists m1, m2, v1, v2, (tr ++ EvIf true :: tr'). repeat split; auto;
            try apply (keep_trans _ _ _ _ K1 L1); try apply (keep_trans _ _ _ _ K2 L2).
        * intros Hs. pose proof (Hb Hs) as C.
          destruct (rr N b u1) as [[[? ?] ?] ?], (rr N b u2) as [[[? ?] ?] ?]. cbn in *.
          apply clash_pre, clash_cons. exact C.
      + rewrite prod_inert by exact Logic.I. cbn [fst snd try_in after_try]. rewrite Pc.
        exists (Exc c), (Exc c), u1, u2, (tr ++ [EvIf false]). cbn [same_ending]. auto 10.
    - intros Hs. pose proof (Ha Hs) as C. unfold rr in *. cbn [run].
      destruct (run N (wd_of t1) a (st_of t1) (tk_of t1)) as [[[m1 s1] k1] c1].
      destruct (run N (wd_of t2) a (st_of t2) (tk_of t2)) as [[[m2 s2] k2] c2].
      cbn [trace snd] in C.
      destruct (run N (wd_of t1) b s1 k1) as [[[? ?] ?] d1].
      destruct (run N (wd_of t2) b s2 k2) as [[[? ?] ?] d2].
      assert (CC : forall x y, clash (c1 ++ x) (c2 ++ y)) by (intros; apply clash_post; exact C).
      pose proof (CC [] []) as C0. pose proof (fun y => CC [] y) as C1. pose proof (fun x => CC x []) as C2.
      rewrite !app_nil_r in C0. setoid_rewrite app_nil_r in C1. setoid_rewrite app_nil_r in C2.
      destruct m1, m2; try destruct (p c); try destruct (p c0); cbn [trace snd];
        try (destruct (p _)); cbn [trace snd]; auto.
  Qed.

  Lemma simSFinally : forall a b, sim_s N sg a -> sim_s N sg b -> sim_s N sg (SFinally a b).
  Proof.
    intros a b IHa IHb n ts t1 t2 (Ga & Gb) E. cbn [trs] in E.
    destruct (trs a n) as [ta|] eqn:Ea; [|discriminate].
    destruct (trs b n) as [tb|] eqn:Eb; [|discriminate]. injection E as <-.
    pose proof (IHa n ta t1 t2 Ga Ea) as Ha. unfold sims in *. cbn [prod].
    destruct (prod N ta (go t1, go t2)) as [q|].
    - destruct Ha as (m1 & m2 & u1 & u2 & tr & -> & SE & K1 & K2 & R1 & R2).
      pose proof (IHb n tb u1 u2 Gb Eb) as Hb. unfold sims in Hb.
      unfold rr in *. cbn [run]. rewrite R1, R2.
      fold (rr N b u1) in Hb. fold (rr N b u2) in Hb.
      modes SE; cbn [fst snd enter_fin];
        try (rewrite prod_inert by exact Logic.I; cbn [fst snd after_fin];
             eexists _, _, u1, u2, tr;
             split; [reflexivity|]; split; [exact SE|]; auto; fail);
      rewrite (rr_keep _ _ _ b N K1), (rr_keep _ _ _ b N K2);
      (destruct (prod N tb (go u1, go u2)) as [q|];
        [ destruct Hb as (m1 & m2 & v1 & v2 & tr' & -> & SE' & L1 & L2 & -> & ->);
          pose proof (keep_trans _ _ _ _ K1 L1); pose proof (keep_trans _ _ _ _ K2 L2);
          cbn [fst snd after_fin];
          modes SE'; eexists _, _, v1, v2, (tr ++ tr'); (split; [reflexivity|]); cbn [same_ending]; auto 10
        | intros Hs; pose proof (Hb Hs) as C;
          destruct (rr N b u1) as [[[? ?] ?] ?], (rr N b u2) as [[[? ?] ?] ?]; cbn in *;
          apply clash_pre; exact C ]).
    - intros Hs. pose proof (Ha Hs) as C. unfold rr in *. cbn [run].
      destruct (run N (wd_of t1) a (st_of t1) (tk_of t1)) as [[[m1 s1] k1] c1].
      destruct (run N (wd_of t2) a (st_of t2) (tk_of t2)) as [[[m2 s2] k2] c2].
      cbn [trace snd] in C.
      destruct (run N (wd_of t1) b s1 k1) as [[[? ?] ?] d1].
      destruct (run N (wd_of t2) b s2 k2) as [[[? ?] ?] d2].
      pose proof (clash_post _ _ [] d2 C). pose proof (clash_post _ _ d1 [] C).
      pose proof (clash_post _ _ d1 d2 C). rewrite app_nil_r in *.
      destruct m1, m2; cbn [trace snd]; assumption.
  Qed.

  (** a condition without statements *)
  Lemma cond_eval : forall e n xc n', good_expr sg e -> tre e n = (TSkip, xc, n') -> forall t1 t2,
    exists tr, res e t1 = (tev t1 xc, tk_of t1, tr) /\ res e t2 = (tev t2 xc, tk_of t2, tr).
  Proof.
    intros e n xc n' G E t1 t2. pose proof (e_sim e n TSkip xc n' t1 t2 G E) as H.
    unfold sim in H. cbn [prod] in H. destruct H as (u1 & u2 & Q & _ & _ & H).
    injection Q as -> ->. exact H.
  Qed.

  Definition unbrk (m : mode) : mode := match m with Brk => Go | _ => m end.

  Lemma leave_unbrk : forall m u, leave (Some (m, u)) = Some (unbrk m, u).
  Proof. intros [] u; reflexivity. Qed.

  Definition sims_loop (n : nat) (r : option sides) (t1 t2 : tstate) (r1 r2 : result) : Prop :=
    match r with
    | Some p => exists m1 m2 u1 u2 tr, p = (Some (m1, u1), Some (m2, u2)) /\
        same_ending m1 m2 /\ keep n t1 u1 /\ keep n t2 u2 /\
        r1 = (unbrk m1, st_of u1, tk_of u1, tr) /\ r2 = (unbrk m2, st_of u2, tk_of u2, tr)
    | None => sg = true -> clash (trace r1) (trace r2)
    end.

  Lemma same_unbrk : forall a b, same_ending a b -> same_ending (unbrk a) (unbrk b).
  Proof. intros [] []; cbn; auto. Qed.

  Lemma ploop_go : forall c inv body m t1 t2,
    truth (tev t1 c) = truth (tev t2 c) ->
    ploop c inv body m (go t1, go t2) =
    if truth (tev t1 c) then
      match m with
      | O => Some (Some (Out, t1), Some (Out, t2))
      | S k =>
          match body (go t1, go t2) with
          | None => None
          | Some b =>
              if forallb (fun e => low_ok e (go_on (fst b), go_on (snd b))) inv
              then ploop c inv body k (go_on (fst b), go_on (snd b)) else None
          end
      end
    else match m with
         | O => Some (go t1, go t2)
         | S k =>
             match body (None, None) with
             | None => None
             | Some b =>
                 if forallb (fun e => low_ok e (go_on (fst b), go_on (snd b))) inv
                 then match ploop c inv body k (go_on (fst b), go_on (snd b)) with
                      | None => None | Some _ => Some (go t1, go t2) end
                 else None
             end
         end.
  Proof.
    intros c inv body m t1 t2 T. destruct m; cbn [ploop]; cbv zeta; cbn [fst snd sel merge cut]; rewrite <- T;
      destruct (truth (tev t1 c)); cbn [Bool.eqb fst snd cut]; try reflexivity.
    - destruct (body (go t1, go t2)) as [b|]; [|reflexivity].
      destruct (forallb _ inv); [|reflexivity].
      destruct (ploop c inv body m _) as [[? ?]|]; reflexivity.
    - destruct (body (None, None)) as [b|]; [|reflexivity].
      destruct (forallb _ inv); [|reflexivity].
      destruct (ploop c inv body m _) as [[? ?]|]; reflexivity.
  Qed.

  Lemma ploop_done : forall c inv tb m t1 t2,
    truth (tev t1 c) = false -> truth (tev t2 c) = false ->
    ploop c inv (prod N tb) m (go t1, go t2) = Some (go t1, go t2).
  Proof.
    intros c inv tb m t1 t2 T1 T2. rewrite ploop_go, T1 by congruence.
    destruct m; [reflexivity|]. rewrite prod_inert by exact Logic.I. cbn [fst snd go_on].
    rewrite forallb_inert by exact Logic.I.
    rewrite ploop_inert; [reflexivity|apply prod_inert; exact Logic.I|exact Logic.I|exact Logic.I].
  Qed.

  Definition wl (e : expr) (body : stmt) (m : nat) (t : tstate) : result :=
    wloop (wd_of t) e (fun s k => run N (wd_of t) body s k) m (st_of t) (tk_of t).

  Lemma wl_keep : forall e body m n t u, keep n t u ->
    wloop (wd_of t) e (fun s k => run N (wd_of t) body s k) m (st_of u) (tk_of u) = wl e body m u.
  Proof. intros e body m n t u (A & _). unfold wl. rewrite A. reflexivity. Qed.

  Lemma while_loop : forall e body n xc n' tb inv,
    sim_s N sg body -> good_expr sg e -> tre e n = (TSkip, xc, n') ->
    good sg body -> trs body n = Some tb ->
    In (XTruth xc) inv -> (sg = true -> inv = [XTruth xc]) ->
    forall m t1 t2, truth (tev t1 xc) = truth (tev t2 xc) ->
    sims_loop n (ploop (XTruth xc) inv (prod N tb) m (go t1, go t2)) t1 t2
      (wl e body m t1) (wl e body m t2).
  Proof.
    intros e body n xc n' tb inv IH Ge Ee Gb Eb HI HS.
    induction m as [|m IHm]; intros t1 t2 T.
    - rewrite ploop_go by (cbn [tev]; rewrite !truth_of_bool; exact T).
      cbn [tev]. rewrite truth_of_bool.
      destruct (cond_eval e n xc n' Ge Ee t1 t2) as (tr & R1 & R2). unfold res in *.
      unfold wl. cbn [wloop]. rewrite R1, R2, <- T. unfold sims_loop.
      destruct (truth (tev t1 xc));
        [exists Out, Out, t1, t2, (tr ++ [EvIf true]) | exists Go, Go, t1, t2, (tr ++ [EvIf false])];
        cbn [unbrk same_ending]; repeat split; auto.
    - destruct (cond_eval e n xc n' Ge Ee t1 t2) as (tr & R1 & R2). unfold res in *.
      unfold wl. cbn [wloop]. rewrite R1, R2, <- T.
      destruct (truth (tev t1 xc)) eqn:Tc.
      + rewrite ploop_go by (cbn [tev]; rewrite !truth_of_bool; congruence).
        cbn [tev]. rewrite truth_of_bool, Tc.
        pose proof (IH n tb t1 t2 Gb Eb) as Hb. unfold sims, rr in Hb.
        destruct (prod N tb (go t1, go t2)) as [q|].
        * destruct Hb as (m1 & m2 & u1 & u2 & tr' & -> & SE & K1 & K2 & -> & ->).
          cbn [fst snd].
          assert (STEP : sims_loop n
                    (if forallb (fun e => low_ok e (go u1, go u2)) inv
                     then ploop (XTruth xc) inv (prod N tb) m (go u1, go u2) else None) t1 t2
                    (addt (tr ++ EvIf true :: tr') (wl e body m u1))
                    (addt (tr ++ EvIf true :: tr') (wl e body m u2))).
          { destruct (forallb (fun e => low_ok e (go u1, go u2)) inv) eqn:F.
            - assert (T2 : truth (tev u1 xc) = truth (tev u2 xc)).
              { rewrite forallb_forall in F. pose proof (F _ HI) as F1.
                rewrite low_truth in F1. apply eqb_prop in F1. exact F1. }
              pose proof (IHm u1 u2 T2) as H. unfold sims_loop in *.
              destruct (ploop (XTruth xc) inv (prod N tb) m (go u1, go u2)).
              + destruct H as (m1' & m2' & v1 & v2 & t & -> & SE' & L1 & L2 & -> & ->).
                eexists m1', m2', v1, v2, _. split; [reflexivity|]. split; [exact SE'|].
                split; [exact (keep_trans _ _ _ _ K1 L1)|].
                split; [exact (keep_trans _ _ _ _ K2 L2)|]. cbn [addt]. split; reflexivity.
              + intros Hs. pose proof (H Hs) as C.
                destruct (wl e body m u1) as [[[? ?] ?] ?], (wl e body m u2) as [[[? ?] ?] ?].
                cbn in *. apply clash_pre. exact C.
            - intros Hs. rewrite (HS Hs) in F. cbn [forallb] in F.
              rewrite andb_true_r, low_truth in F. apply eqb_false_iff in F.
              destruct (cond_eval e n xc n' Ge Ee u1 u2) as (tr2 & P1 & P2). unfold res in *.
              unfold wl.
              assert (X : forall m t v k tr0, eval (wd_of t) (st_of t) e (tk_of t) = (v, k, tr0) ->
                exists rest, trace (wloop (wd_of t) e (fun s k => run N (wd_of t) body s k) m (st_of t) (tk_of t))
                  = tr0 ++ EvIf (truth v) :: rest).
              { intros m0 t v k tr0 Q. destruct m0; cbn [wloop]; rewrite Q; destruct (truth v);
                  try (eexists; reflexivity).
                destruct (run N (wd_of t) body (st_of t) k) as [[[md ?] ?] ?].
                destruct md; try (eexists; reflexivity);
                  match goal with |- context [wloop ?w ?e ?b ?m ?s ?k] =>
                    destruct (wloop w e b m s k) as [[[? ?] ?] ?] end; eexists; reflexivity. }
              destruct (X m u1 _ _ _ P1) as (rs1 & Q1). destruct (X m u2 _ _ _ P2) as (rs2 & Q2).
              destruct (wloop (wd_of u1) _ _ m _ _) as [[[? ?] ?] ?].
              destruct (wloop (wd_of u2) _ _ m _ _) as [[[? ?] ?] ?]. cbn [trace snd addt] in *.
              rewrite Q1, Q2. apply clash_pre, clash_pre, clash_now. congruence. }
          modes SE; cbn [go_on];
            try (rewrite (wl_keep e body m n t1 u1 K1), (wl_keep e body m n t2 u2 K2);
                 destruct (wl e body m u1) as [[[? ?] ?] ?], (wl e body m u2) as [[[? ?] ?] ?];
                 cbn [addt] in STEP; rewrite <- !app_assoc in STEP; exact STEP);
            rewrite forallb_inert by exact Logic.I;
            rewrite ploop_inert by (try apply prod_inert; exact Logic.I);
            unfold sims_loop; eexists _, _, u1, u2, (tr ++ EvIf true :: tr');
            (split; [reflexivity|]); cbn [same_ending unbrk]; auto 10.
        * intros Hs. pose proof (Hb Hs) as C.
          destruct (run N (wd_of t1) body (st_of t1) (tk_of t1)) as [[[m1 s1] k1] c1].
          destruct (run N (wd_of t2) body (st_of t2) (tk_of t2)) as [[[m2 s2] k2] c2].
          cbn [trace snd] in C.
          destruct (wloop (wd_of t1) e _ m s1 k1) as [[[? ?] ?] d1].
          destruct (wloop (wd_of t2) e _ m s2 k2) as [[[? ?] ?] d2].
          pose proof (clash_post _ _ [] d2 C). pose proof (clash_post _ _ d1 [] C).
          pose proof (clash_post _ _ d1 d2 C). rewrite app_nil_r in *.
          destruct m1, m2; cbn [trace snd]; apply clash_pre, clash_cons; assumption.
      + rewrite ploop_done by (cbn [tev]; rewrite truth_of_bool; congruence).
        unfold sims_loop. exists Go, Go, t1, t2, (tr ++ [EvIf false]).
        cbn [unbrk same_ending]. repeat split; auto.
  Qed.

  Lemma tinv_in : forall e n x n' lows inv, tre e n = (TSkip, x, n') ->
    tinv lows n = Some inv -> In e lows -> In (XTruth x) inv.
  Proof.
    intros e n x n' lows. induction lows as [|l lows IH]; intros inv E H HI; [destruct HI|].
    cbn [tinv] in H. destruct (tre l n) as [[s y] n1] eqn:El.
    destruct s; try discriminate. destruct (tinv lows n) as [xs|]; [|discriminate].
    injection H as <-. destruct HI as [->|HI].
    - rewrite E in El. injection El as <- _. left. reflexivity.
    - right. apply IH; auto.
  Qed.

  Lemma simSWhile : forall e lows body, sim_s N sg body -> sim_s N sg (SWhile e lows body).
  Proof.
    intros e lows body IH n ts t1 t2 (Ge & GI & Gb) E. cbn [trs] in E.
    destruct (tre e n) as [[s xc] n'] eqn:Ee. destruct s; try discriminate.
    destruct (tinv lows n) as [inv|] eqn:Ei; [|discriminate].
    destruct (trs body n) as [tb|] eqn:Eb; [|discriminate]. injection E as <-.
    assert (HI : In (XTruth xc) inv).
    { apply (tinv_in e n xc n' lows inv Ee Ei). destruct sg; [rewrite GI; left; reflexivity|exact GI]. }
    assert (HS : sg = true -> inv = [XTruth xc]).
    { intros Hs. rewrite Hs in GI. subst lows. cbn [tinv] in Ei. rewrite Ee in Ei. congruence. }
    unfold sims. rewrite prod_seq. cbn [prod]. rewrite low_truth.
    destruct (cond_eval e n xc n' Ge Ee t1 t2) as (tr & R1 & R2). unfold res in *.
    destruct (Bool.eqb (truth (tev t1 xc)) (truth (tev t2 xc))) eqn:T.
    - apply eqb_prop in T.
      destruct (forallb (fun e0 => low_ok e0 (go t1, go t2)) inv) eqn:F.
      + pose proof (while_loop e body n xc n' tb inv IH Ge Ee Gb Eb HI HS N t1 t2 T) as H.
        unfold sims_loop in H. destruct (ploop (XTruth xc) inv (prod N tb) N (go t1, go t2)).
        * destruct H as (m1 & m2 & u1 & u2 & t & -> & SE & K1 & K2 & H1 & H2).
          cbn [fst snd]. rewrite !leave_unbrk.
          exists (unbrk m1), (unbrk m2), u1, u2, t.
          split; [reflexivity|]. split; [exact (same_unbrk _ _ SE)|]. auto.
        * exact H.
      + intros Hs. rewrite (HS Hs) in F. cbn [forallb] in F.
        rewrite andb_true_r, low_truth, T, eqb_reflx in F. discriminate.
    - apply eqb_false_iff in T. intros _. unfold rr. cbn [run].
      destruct N as [|N']; cbn [wloop]; rewrite R1, R2.
      + destruct (truth (tev t1 xc)), (truth (tev t2 xc)); cbn [trace snd]; try congruence;
          apply clash_pre, clash_now; discriminate.
      + destruct (truth (tev t1 xc)), (truth (tev t2 xc)); try congruence.
        * match goal with |- context [run ?a ?w ?b ?s ?k] => destruct (run a w b s k) as [[[m1 ?] ?] ?] end.
          match goal with |- context [wloop ?w ?e ?b ?m ?s ?k] => destruct (wloop w e b m s k) as [[[? ?] ?] ?] end.
          destruct m1; cbn [trace snd]; apply clash_pre, clash_now; discriminate.
        * match goal with |- context [run ?a ?w ?b ?s ?k] => destruct (run a w b s k) as [[[m1 ?] ?] ?] end.
          match goal with |- context [wloop ?w ?e ?b ?m ?s ?k] => destruct (wloop w e b m s k) as [[[? ?] ?] ?] end.
          destruct m1; cbn [trace snd]; apply clash_pre, clash_now; discriminate.
  Qed.
End Stmts.
