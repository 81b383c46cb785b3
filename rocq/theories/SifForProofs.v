(** For loops, and the result for whole programs. *)
From Coq Require Import List ZArith Bool Arith Lia.
From Verif Require Import SifSpec SifModel SifProofs SifSimProofs SifStmtProofs.
Import ListNotations.

Notation go t := (Some (Go, t)).

(** a body without [continue] does not end with one *)
Lemma no_cont : forall N w,
  (forall s st k, no_continue s -> ending (run N w s st k) <> Cont) /\
  (forall cs v st k, no_continue_c cs -> ending (runc N w v cs st k) <> Cont).
Proof.
  intros N w. apply stmt_cases_ind; cbn [no_continue no_continue_c run runc].
  - discriminate.
  - intros a IHa b IHb st k (Ga & Gb). pose proof (IHa st k Ga) as Ha.
    destruct (run N w a st k) as [[[m s1] k1] t1].
    pose proof (IHb s1 k1 Gb) as Hb. destruct (run N w b s1 k1) as [[[m2 s2] k2] t2].
    destruct m; cbn in *; congruence.
  - intros x e st k _. destruct (eval w st e k) as [[? ?] ?]. discriminate.
  - intros e st k _. destruct (eval w st e k) as [[? ?] ?]. discriminate.
  - intros e a IHa b IHb st k (Ga & Gb). destruct (eval w st e k) as [[v k1] ?].
    pose proof (IHa st k1 Ga). pose proof (IHb st k1 Gb).
    destruct (truth v); [destruct (run N w a st k1) as [[[? ?] ?] ?]|destruct (run N w b st k1) as [[[? ?] ?] ?]];
      cbn in *; assumption.
  - intros e l body _ st k _.
    assert (H : forall n st k, ending (wloop w e (fun s k => run N w body s k) n st k) <> Cont).
    { induction n as [|n IH]; intros s k'; cbn [wloop]; destruct (eval w s e k') as [[v k1] ?];
        destruct (truth v); try discriminate.
      destruct (run N w body s k1) as [[[m s2] k2] t2]. pose proof (IH s2 k2).
      destruct (wloop w e _ n s2 k2) as [[[? ?] ?] ?]. destruct m; cbn in *; congruence. }
    apply H.
  - intros x e body _ st k _. destruct (eval w st e k) as [[v k1] t1].
    assert (H : forall l n st k, ending (floop x (fun s k => run N w body s k) l n st k) <> Cont).
    { induction l as [|z l IH]; intros n s k'; cbn [floop]; [destruct n; discriminate|].
      destruct n as [|n]; [discriminate|].
      destruct (run N w body (upd s x (VInt z)) k') as [[[m s2] k2] t2]. pose proof (IH n s2 k2).
      destruct (floop x _ l n s2 k2) as [[[? ?] ?] ?]. destruct m; cbn in *; congruence. }
    pose proof (H (elems v) N st k1) as H1.
    destruct (floop x _ (elems v) N st k1) as [[[? ?] ?] ?]. exact H1.
  - intros e cs IH st k G. destruct (eval w st e k) as [[v k1] ?]. pose proof (IH v st k1 G).
    destruct (runc N w v cs st k1) as [[[? ?] ?] ?]. assumption.
  - intros e st k _. destruct (eval w st e k) as [[? ?] ?]. discriminate.
  - intros a IHa p b IHb st k (Ga & Gb). pose proof (IHa st k Ga) as Ha.
    destruct (run N w a st k) as [[[m s1] k1] t1].
    pose proof (IHb s1 k1 Gb) as Hb. destruct (run N w b s1 k1) as [[[m2 s2] k2] t2].
    destruct m; try exact Ha. destruct (p c); cbn in *; congruence.
  - intros a IHa b IHb st k (Ga & Gb). pose proof (IHa st k Ga) as Ha.
    destruct (run N w a st k) as [[[m s1] k1] t1].
    pose proof (IHb s1 k1 Gb) as Hb. destruct (run N w b s1 k1) as [[[m2 s2] k2] t2].
    destruct m; try exact Ha; destruct m2; cbn in *; congruence.
  - intros e st k _. destruct (eval w st e k) as [[? ?] ?]. discriminate.
  - discriminate.
  - contradiction.
  - discriminate.
  - intros p b IHb cs IHc v st k (Gb & Gc). pose proof (IHb st k Gb). pose proof (IHc v st k Gc).
    destruct (p v); [destruct (run N w b st k) as [[[? ?] ?] ?]|destruct (runc N w v cs st k) as [[[? ?] ?] ?]];
      assumption.
Qed.

Section For.
  Variable N : nat.
  Variable sg : bool.
  Variables x it : nat.

  Let has := S it.
  Let el := S (S it).

  Definition nx : tstmt :=
    TSeq (TNext it has el)
      (TSeq (TLow (XTmp has)) (TIf (XTruth (XTmp has)) (TAssign x (XTmp el)) TSkip)).

  Definition ne (l : list Z) : bool := match l with [] => false | _ => true end.
  Definition todo (t : tstate) : list Z := elems (tm_of t it).

  Definition nxt (t : tstate) : tstate :=
    match todo t with
    | [] => mk (st_of t) (upd (tm_of t) has (VInt 0)) (tk_of t) (wd_of t)
    | z :: l => mk (upd (st_of t) x (VInt z))
                   (upd (upd (upd (tm_of t) has (VInt 1)) el (VInt z)) it (VSeq l)) (tk_of t) (wd_of t)
    end.

  Lemma upd_same : forall s i v, upd s i v i = v.
  Proof. intros. unfold upd. rewrite Nat.eqb_refl. reflexivity. Qed.

  Lemma upd_other : forall s i j v, j <> i -> upd s i v j = s j.
  Proof. intros s i j v H. unfold upd. destruct (Nat.eqb_spec j i); [contradiction|reflexivity]. Qed.

  Lemma nx_prod : forall t1 t2,
    prod N nx (go t1, go t2) =
    if Bool.eqb (ne (todo t1)) (ne (todo t2)) then Some (go (nxt t1), go (nxt t2)) else None.
  Proof.
    intros t1 t2. unfold nx. rewrite prod_seq. cbn [prod]. unfold both. cbn [fst snd step1].
    unfold next1, nxt, todo. destruct (elems (tm_of t1 it)) as [|z1 l1], (elems (tm_of t2 it)) as [|z2 l2];
      cbn [low_ok tev tm_of ne Bool.eqb];
      repeat (first [rewrite upd_same | rewrite upd_other by (unfold has, el; lia)]);
      cbn; unfold el, has;
      do 3 (repeat (first [rewrite upd_same | rewrite upd_other by lia]); cbn); reflexivity.
  Qed.

  Lemma nxt_has : forall t, truth (tev (nxt t) (XTruth (XTmp has))) = ne (todo t).
  Proof.
    intros t. cbn [tev]. rewrite truth_of_bool. unfold nxt. destruct (todo t); cbn [tm_of ne];
      repeat (first [rewrite upd_same | rewrite upd_other by (unfold has, el; lia)]); reflexivity.
  Qed.

  Lemma nxt_keep : forall n t, n <= it -> keep n t (nxt t).
  Proof.
    intros n t L. unfold nxt. destruct (todo t); split; cbn [wd_of tm_of]; auto; intros i Hi;
      repeat (rewrite upd_other by (unfold has, el; lia)); reflexivity.
  Qed.

  Lemma nxt_todo : forall t, todo (nxt t) = tl (todo t).
  Proof.
    intros t. unfold nxt. destruct (todo t) as [|z l] eqn:E; unfold todo in *; cbn [tm_of tl].
    - rewrite upd_other by (unfold has; lia). exact E.
    - rewrite upd_same. reflexivity.
  Qed.

  Definition fl (body : stmt) (m : nat) (t : tstate) : result :=
    floop x (fun s k => run N (wd_of t) body s k) (todo t) m (st_of t) (tk_of t).

  Lemma fl_event : forall body m t, exists rest, trace (fl body m t) = EvIf (ne (todo t)) :: rest.
  Proof.
    intros body m t. unfold fl. destruct (todo t) as [|z l]; [destruct m; eexists; reflexivity|].
    destruct m; [eexists; reflexivity|]. cbn [floop].
    destruct (run N (wd_of t) body _ _) as [[[md s2] k2] t2].
    destruct (floop x _ l m s2 k2) as [[[? ?] ?] ?].
    destruct md; eexists; reflexivity.
  Qed.

  Lemma fl_clash : forall body m t1 t2, ne (todo t1) <> ne (todo t2) ->
    clash (trace (fl body m t1)) (trace (fl body m t2)).
  Proof.
    intros body m t1 t2 H. destruct (fl_event body m t1) as (r1 & ->).
    destruct (fl_event body m t2) as (r2 & ->). apply clash_now. congruence.
  Qed.

  Lemma for_loop : forall body n tb, n <= it ->
    sim_s N sg body -> good sg body -> no_continue body -> trs body (S (S (S it))) = Some tb ->
    forall m t1 t2, ne (todo t1) = ne (todo t2) ->
    sims_loop sg n (ploop (XTruth (XTmp has)) [] (prod N (TSeq tb nx)) m (go (nxt t1), go (nxt t2)))
      t1 t2 (fl body m t1) (fl body m t2).
  Proof.
    intros body n tb L IH Gb NC Eb. induction m as [|m IHm]; intros t1 t2 T.
    - rewrite ploop_go by (rewrite !nxt_has; exact T). rewrite nxt_has. unfold fl, nxt, sims_loop.
      destruct (todo t1) as [|z1 l1] eqn:D1, (todo t2) as [|z2 l2] eqn:D2; try discriminate; cbn [ne floop].
      + eexists Go, Go, _, _, [EvIf false]. split; [reflexivity|]. cbn [same_ending unbrk].
        pose proof (nxt_keep n t1 L) as K1. pose proof (nxt_keep n t2 L) as K2.
        unfold nxt in K1, K2. rewrite D1 in K1. rewrite D2 in K2. auto 10.
      + eexists Out, Out, _, _, [EvIf true]. split; [reflexivity|]. cbn [same_ending unbrk].
        pose proof (nxt_keep n t1 L) as K1. pose proof (nxt_keep n t2 L) as K2.
        unfold nxt in K1, K2. rewrite D1 in K1. rewrite D2 in K2. auto 10.
    - destruct (todo t1) as [|z1 l1] eqn:D1, (todo t2) as [|z2 l2] eqn:D2; try discriminate.
      + rewrite ploop_done by (rewrite nxt_has, ?D1, ?D2; reflexivity).
        unfold fl, sims_loop. rewrite D1, D2. cbn [floop].
        eexists Go, Go, _, _, [EvIf false]. split; [reflexivity|]. cbn [same_ending unbrk].
        pose proof (nxt_keep n t1 L) as K1. pose proof (nxt_keep n t2 L) as K2.
        unfold nxt in *. rewrite D1 in *. rewrite D2 in *. auto 10.
      + rewrite ploop_go by (rewrite !nxt_has, D1, D2; reflexivity).
        rewrite nxt_has, D1. cbn [ne].
        unfold fl. rewrite D1, D2. cbn [floop].
        pose proof (IH (S (S (S it))) tb (nxt t1) (nxt t2) Gb Eb) as Hb.
        pose proof (proj1 (no_cont N (wd_of t1)) body (upd (st_of t1) x (VInt z1)) (tk_of t1) NC) as NC1.
        assert (Q1 : rr N body (nxt t1) = run N (wd_of t1) body (upd (st_of t1) x (VInt z1)) (tk_of t1)).
        { unfold rr, nxt. rewrite D1. reflexivity. }
        assert (Q2 : rr N body (nxt t2) = run N (wd_of t2) body (upd (st_of t2) x (VInt z2)) (tk_of t2)).
        { unfold rr, nxt. rewrite D2. reflexivity. }
        unfold sims in Hb. rewrite Q1, Q2 in Hb. rewrite prod_seq.
        destruct (prod N tb (go (nxt t1), go (nxt t2))) as [q|].
        * destruct Hb as (m1 & m2 & u1 & u2 & tr & -> & SE & K1 & K2 & R1 & R2).
          rewrite R1 in *. rewrite R2 in *.
          assert (TD1 : todo u1 = l1).
          { pose proof (nxt_todo t1) as X. rewrite D1 in X. cbn [tl] in X. rewrite <- X.
            unfold todo. rewrite (proj2 K1 it) by lia. reflexivity. }
          assert (TD2 : todo u2 = l2).
          { pose proof (nxt_todo t2) as X. rewrite D2 in X. cbn [tl] in X. rewrite <- X.
            unfold todo. rewrite (proj2 K2 it) by lia. reflexivity. }
          assert (L1 : keep n t1 u1).
          { apply (keep_trans n _ (nxt t1)); [apply nxt_keep; exact L|].
            apply (keep_le n (S (S (S it)))); [lia|exact K1]. }
          assert (L2 : keep n t2 u2).
          { apply (keep_trans n _ (nxt t2)); [apply nxt_keep; exact L|].
            apply (keep_le n (S (S (S it)))); [lia|exact K2]. }
          assert (F1 : floop x (fun s k => run N (wd_of t1) body s k) l1 m (st_of u1) (tk_of u1) = fl body m u1).
          { unfold fl. rewrite TD1, (proj1 L1). reflexivity. }
          assert (F2 : floop x (fun s k => run N (wd_of t2) body s k) l2 m (st_of u2) (tk_of u2) = fl body m u2).
          { unfold fl. rewrite TD2, (proj1 L2). reflexivity. }
          modes SE; cbn [ending fst] in NC1; try congruence;
            try (rewrite prod_inert by exact Logic.I; cbn [fst snd go_on forallb];
                 rewrite ploop_inert by (try apply prod_inert; exact Logic.I);
                 unfold sims_loop; eexists _, _, u1, u2, (EvIf true :: tr);
                 (split; [reflexivity|]); cbn [same_ending unbrk]; auto 10; fail).
          rewrite nx_prod.
          destruct (Bool.eqb (ne (todo u1)) (ne (todo u2))) eqn:T2.
          -- apply eqb_prop in T2. cbn [fst snd go_on forallb].
             rewrite F1, F2. pose proof (IHm u1 u2 T2) as H. unfold sims_loop in *.
             destruct (ploop (XTruth (XTmp has)) [] (prod N (TSeq tb nx)) m (go (nxt u1), go (nxt u2))).
             ++ destruct H as (m1' & m2' & v1 & v2 & t & -> & SE' & M1 & M2 & -> & ->).
                eexists m1', m2', v1, v2, _. split; [reflexivity|]. split; [exact SE'|].
                split; [exact (keep_trans _ _ _ _ L1 M1)|].
                split; [exact (keep_trans _ _ _ _ L2 M2)|]. split; reflexivity.
             ++ intros Hs. pose proof (H Hs) as C.
                destruct (fl body m u1) as [[[? ?] ?] ?], (fl body m u2) as [[[? ?] ?] ?]. cbn in *.
                apply clash_cons, clash_pre. exact C.
          -- apply eqb_false_iff in T2. intros _. rewrite F1, F2.
             pose proof (fl_clash body m u1 u2 T2) as C.
             destruct (fl body m u1) as [[[? ?] ?] ?], (fl body m u2) as [[[? ?] ?] ?]. cbn in *.
             apply clash_cons, clash_pre. exact C.
        * intros Hs. pose proof (Hb Hs) as C.
          destruct (run N (wd_of t1) body (upd (st_of t1) x (VInt z1)) (tk_of t1)) as [[[m1 s1] k1] c1].
          destruct (run N (wd_of t2) body (upd (st_of t2) x (VInt z2)) (tk_of t2)) as [[[m2 s2] k2] c2].
          cbn [trace snd] in C.
          destruct (floop x _ l1 m s1 k1) as [[[? ?] ?] d1].
          destruct (floop x _ l2 m s2 k2) as [[[? ?] ?] d2].
          pose proof (clash_post _ _ [] d2 C). pose proof (clash_post _ _ d1 [] C).
          pose proof (clash_post _ _ d1 d2 C). rewrite app_nil_r in *.
          destruct m1, m2; cbn [trace snd]; apply clash_cons; assumption.
  Qed.
End For.

Lemma simSFor : forall N sg x e body, sim_s N sg body -> sim_s N sg (SFor x e body).
Proof.
  intros N sg x e body IH n ts t1 t2 (Ge & Gb & NC) E. cbn [trs] in E.
  destruct (tre e n) as [[s v] it] eqn:Ee.
  destruct (trs body (S (S (S it)))) as [tb|] eqn:Eb; [|discriminate]. injection E as <-.
  destruct (proj1 bounds _ _ _ _ _ Ee) as [Le Xe].
  fold (nx x it).
  eapply sims_pre; [exact (e_sim N sg e n s v it t1 t2 Ge Ee)| |].
  - intros u1 u2 E1 E2 (tr & R1 & R2). unfold rr, res in *. cbn [run]. rewrite R1, R2.
    set (a := fun t => mk (st_of t) (upd (tm_of t) it (tev t v)) (tk_of t) (wd_of t)).
    assert (TA : forall t, todo it (a t) = elems (tev t v)).
    { intros t. unfold todo, a. cbn [tm_of]. rewrite upd_same. reflexivity. }
    assert (KA : forall t, keep n t (a t)).
    { intros t. split; [reflexivity|]. intros i Hi. unfold a. cbn [tm_of]. apply upd_other. lia. }
    assert (FL : forall t u, ext n t u -> forall m,
      floop x (fun s k => run N (wd_of t) body s k) (elems (tev u v)) m (st_of t) (tk_of u) = fl N x it body m (a u)).
    { intros t u (A & B & _) m. unfold fl. rewrite TA. unfold a. cbn [wd_of st_of tk_of].
      rewrite A, B. reflexivity. }
    rewrite (FL t1 u1 E1), (FL t2 u2 E2).
    unfold sims. rewrite prod_seq. cbn [prod]. unfold both. cbn [fst snd step1].
    fold (a u1) (a u2). change (prod N (nx x it) (go (a u1), go (a u2))) with (prod N (nx x it) (go (a u1), go (a u2))).
    match goal with |- match (match ?X with _ => _ end) with _ => _ end =>
      change X with (prod N (nx x it) (go (a u1), go (a u2))) end.
    rewrite nx_prod.
    destruct (Bool.eqb (ne (todo it (a u1))) (ne (todo it (a u2)))) eqn:T.
    + apply eqb_prop in T.
      pose proof (for_loop N sg x it body n tb Le IH Gb NC Eb N (a u1) (a u2) T) as H.
      cbn [forallb]. unfold sims_loop in H.
      match goal with |- context [ploop ?c ?i ?b ?m ?q] =>
        change (ploop c i b m q) with
          (ploop (XTruth (XTmp (S it))) [] (prod N (TSeq tb (nx x it))) N (go (nxt x it (a u1)), go (nxt x it (a u2)))) end.
      destruct (ploop (XTruth (XTmp (S it))) [] (prod N (TSeq tb (nx x it))) N _).
      * destruct H as (m1 & m2 & v1 & v2 & t & -> & SE & K1 & K2 & -> & ->).
        cbn [fst snd]. rewrite !leave_unbrk.
        eexists (unbrk m1), (unbrk m2), v1, v2, _. split; [reflexivity|].
        split; [exact (same_unbrk _ _ SE)|].
        split; [exact (keep_trans _ _ _ _ (KA u1) K1)|].
        split; [exact (keep_trans _ _ _ _ (KA u2) K2)|]. split; reflexivity.
      * intros Hs. pose proof (H Hs) as C.
        destruct (fl N x it body N (a u1)) as [[[? ?] ?] ?], (fl N x it body N (a u2)) as [[[? ?] ?] ?].
        cbn in *. apply clash_pre. exact C.
    + apply eqb_false_iff in T. intros _.
      pose proof (fl_clash N x it body N (a u1) (a u2) T) as C.
      destruct (fl N x it body N (a u1)) as [[[? ?] ?] ?], (fl N x it body N (a u2)) as [[[? ?] ?] ?].
      cbn in *. apply clash_pre. exact C.
  - unfold rr, res. cbn [run].
    destruct (eval (wd_of t1) (st_of t1) e (tk_of t1)) as [[v1 k1] c1].
    destruct (eval (wd_of t2) (st_of t2) e (tk_of t2)) as [[v2 k2] c2].
    destruct (floop x _ (elems v1) N _ k1) as [[[? ?] ?] r1].
    destruct (floop x _ (elems v2) N _ k2) as [[[? ?] ?] r2].
    cbn [trace fst snd]. apply clash_post.
Qed.

Theorem sim_stmt : forall N sg s, sim_s N sg s.
Proof.
  intros N sg s.
  apply (stmt_mind (sim_s N sg) (fun _ => True)); try (intros; exact Logic.I).
  - intros n ts t1 t2 _ E. cbn [trs] in E. injection E as <-.
    apply (sims_both N sg n _ t1 t2 (fun _ => Go) (fun t => t)); try reflexivity; try exact Logic.I;
      apply keep_refl.
  - intros. apply simSSeq; assumption.
  - intros. apply simSAssign.
  - intros. apply simSExpr.
  - intros. apply simSIf; assumption.
  - intros. apply simSWhile; assumption.
  - intros. apply simSFor; assumption.
  - intros e cs _ n ts t1 t2 [].
  - intros. apply simSRaise.
  - intros. apply simSTry; assumption.
  - intros. apply simSFinally; assumption.
  - intros. apply simSReturn.
  - intros n ts t1 t2 _ E. cbn [trs] in E. injection E as <-.
    apply (sims_both N sg n _ t1 t2 (fun _ => Brk) (fun t => t)); try reflexivity; try exact Logic.I;
      apply keep_refl.
  - intros n ts t1 t2 _ E. cbn [trs] in E. injection E as <-.
    apply (sims_both N sg n _ t1 t2 (fun _ => Cont) (fun t => t)); try reflexivity; try exact Logic.I;
      apply keep_refl.
Qed.

Lemma accepted_same : forall n st w1 w2 s1 s2, good false st ->
  accepted n st w1 w2 s1 s2 -> same_decisions n st w1 w2 s1 s2.
Proof.
  intros n st w1 w2 s1 s2 G (t & E & H).
  pose proof (sim_stmt n false st 0 t (mk s1 (fun _ => VInt 0) 0 w1) (mk s2 (fun _ => VInt 0) 0 w2) G E) as S.
  unfold sims in S. unfold start in H.
  destruct (prod n t _) as [p|]; [|contradiction].
  destruct S as (m1 & m2 & u1 & u2 & tr & _ & SE & _ & _ & R1 & R2).
  unfold rr in R1, R2. cbn [wd_of st_of tk_of] in R1, R2.
  unfold same_decisions. rewrite R1, R2. split; [reflexivity|exact SE].
Qed.

Lemma same_accepted : forall n st w1 w2 s1 s2, good true st -> trs st 0 <> None ->
  trace (run n w1 st s1 0) = trace (run n w2 st s2 0) -> accepted n st w1 w2 s1 s2.
Proof.
  intros n st w1 w2 s1 s2 G HT T. destruct (trs st 0) as [t|] eqn:E; [|contradiction].
  exists t. split; [exact E|].
  pose proof (sim_stmt n true st 0 t (mk s1 (fun _ => VInt 0) 0 w1) (mk s2 (fun _ => VInt 0) 0 w2) G E) as S.
  unfold sims in S. unfold start.
  destruct (prod n t _) as [p|]; [discriminate|].
  pose proof (S eq_refl) as C. apply clash_ne in C. unfold rr in C. cbn [wd_of st_of tk_of] in C. contradiction.
Qed.

(** A for loop whose body is [continue] never gets to __next__. *)
Lemma continue_stuck : forall N c s m t1 t2,
  truth (tev t1 c) = true -> truth (tev t2 c) = true ->
  ploop c [] (prod N (TSeq TContinue s)) m (go t1, go t2) = Some (Some (Out, t1), Some (Out, t2)).
Proof.
  intros N c s m t1 t2 T1 T2. induction m as [|m IH]; rewrite ploop_go, T1 by congruence; [reflexivity|].
  rewrite prod_seq. cbn [prod]. unfold both. cbn [fst snd step1].
  rewrite prod_inert by exact Logic.I. cbn [fst snd go_on forallb]. exact IH.
Qed.

Lemma continue_accepted : forall n w1 w2 s1 s2 x,
  ne (elems (s1 0)) = true -> ne (elems (s2 0)) = true ->
  accepted n (SFor x (EVar 0) SContinue) w1 w2 s1 s2.
Proof.
  intros n w1 w2 s1 s2 x H1 H2. eexists. split; [reflexivity|].
  fold (nx x 0). cbn [tseq]. rewrite prod_seq. cbn [prod]. unfold both, start. cbn [fst snd step1].
  match goal with |- (match prod n (nx x 0) (go ?a, go ?b) with _ => _ end) <> None => set (t1 := a); set (t2 := b) end.
  assert (E1 : ne (todo 0 t1) = true) by exact H1.
  assert (E2 : ne (todo 0 t2) = true) by exact H2.
  rewrite (nx_prod n x 0 t1 t2), E1, E2. cbn [Bool.eqb forallb].
  match goal with |- (match ploop ?c ?i ?b ?m ?p with _ => _ end) <> None =>
    change (ploop c i b m p) with
      (ploop (XTruth (XTmp 1)) [] (prod n (TSeq TContinue (nx x 0))) n (go (nxt x 0 t1), go (nxt x 0 t2))) end.
  rewrite continue_stuck; [discriminate| |].
  - exact (eq_trans (nxt_has x 0 t1) E1).
  - exact (eq_trans (nxt_has x 0 t2) E2).
Qed.
