From Coq Require Import Bool Arith List Lia.
From Verif Require Import ErrModel ErrSpec ErrProofs SvcModel SvcSpec.
Import ListNotations.

Lemma upd_eq : forall A (f : nat -> A) k v, upd f k v k = v.
Proof. intros. unfold upd. rewrite Nat.eqb_refl. reflexivity. Qed.
Lemma upd_neq : forall A (f : nat -> A) k v x, x <> k -> upd f k v x = f x.
Proof. intros A f k v x H. unfold upd. apply Nat.eqb_neq in H. rewrite H. reflexivity. Qed.

Definition crit (p : rpc) : bool :=
  match p with
  | QReset _ | QClear _ | QReg _ _ _ | QSnap _ | QClearS _ _ | QRelease _ _ | QInstall _ _
  | QVerify _ | QFail _ _ | QConv _ _ _ _ | QClearC _ | QUnlock _ => true
  | _ => false
  end.
Definition holds (t : thread) : bool :=
  match t with
  | TReq _ p => crit p
  | TReconf _ (FApply _ _) | TReconf _ FUnlock => true
  | _ => false
  end.
Definition snap_of (t : thread) : option nat :=
  match t with
  | TReq _ (QClearS _ r) | TReq _ (QRelease _ r) | TReq _ (QArgs _ r) | TReq _ (QSubmit _ r _)
  | TReq _ (QPut r _) | TReq _ (QAwait r _) | TReq _ (QDel r _ _) | TReq _ (QWaitC r _)
  | TReq _ (QInstall r _) => Some r
  | _ => None
  end.
Definition job_of (t : thread) : option nat :=
  match t with
  | TReq _ (QPut _ j) | TReq _ (QAwait _ j) | TReq _ (QDel _ j _) => Some j
  | _ => None
  end.

Section Inv.
  Context (E : env).

  Definition inv_lock (s : state) : Prop := forall i, holds (thr s i) = true <-> lock s = Some i.
  Definition inv_cells (s : state) : Prop :=
    em s < ncell s /\
    (forall i r, snap_of (thr s i) = Some r -> r < ncell s /\ r <> em s) /\
    (forall i j r, snap_of (thr s i) = Some r -> snap_of (thr s j) = Some r -> i = j).
  Definition inv_res (s : state) : Prop :=
    (exists i us l, thr s i = TReconf us (FApply l true)) \/ res s = load (cfg s).

  (** Case split over the steps. *)
  Ltac steps H :=
    unfold exec1, step, finish_job, step_request, step_cancel, step_reconf in H;
    repeat match type of H with
    | context [match ?x with _ => _ end] =>
        match x with
        | context [match _ with _ => _ end] => fail 1
        | _ => destruct x eqn:?
        end
    end; try discriminate H; try (injection H as <-).

  Ltac split_thr k i := unfold upd; destruct (Nat.eqb_spec k i); [subst k|].

  Lemma inv_lock_step : forall e s s', inv_lock s -> exec1 E e s = Some s' -> inv_lock s'.
  Proof.
    intros e s s' I H k. pose proof (I k) as Ik.
    assert (IA : forall i, lock s = Some i -> holds (thr s i) = true) by (intros; apply I; assumption).
    assert (IB : forall i, holds (thr s i) = true -> lock s = Some i) by (intros; apply I; assumption).
    steps H; cbn [thr lock with_lock with_em with_new_cell with_em_ref with_obl with_cfg with_res with_jobs
                  with_new_job with_srv with_thr]; try exact Ik;
    lazymatch goal with Q : thr s ?i = _ |- _ =>
      specialize (IB i); rewrite Q in IB; cbn in IB; split_thr k i;
      [ rewrite Q in Ik; cbn in *; try tauto; try (destruct conc); cbn; intuition congruence
      | cbn in *; try tauto; intuition congruence ]
    end.
  Qed.

  Lemma inv_cells_step : forall e s s', inv_cells s -> exec1 E e s = Some s' -> inv_cells s'.
  Proof.
    intros e s s' (I1 & I2 & I3) H.
    steps H; unfold inv_cells; cbn [thr lock em ncell with_lock with_em with_new_cell with_em_ref with_obl with_cfg with_res with_jobs
                  with_new_job with_srv with_thr];
    try (split; [exact I1|split; [exact I2|exact I3]]; fail);
    lazymatch goal with Q : thr s ?i = _ |- _ =>
      pose proof (I2 i) as I2i; pose proof (I3 i) as I3i; rewrite Q in I2i, I3i; cbn in I2i, I3i;
      split; [try (specialize (I2i _ eq_refl)); cbn; lia|split];
      [ intros k rr; pose proof (I2 k rr) as I2k; split_thr k i; cbn;
        try destruct conc; cbn; intros S;
        try discriminate S; try (injection S as <-);
        try (specialize (I2i _ eq_refl)); try (specialize (I2k S)); try lia;
        try (split; [lia|]; intros ->; specialize (I3i _ _ eq_refl S); congruence)
      | intros k k' rr; pose proof (I3 k k' rr) as I3k; pose proof (I2 k rr) as I2k; pose proof (I2 k' rr) as I2k';
        split_thr k i; split_thr k' i; cbn; try destruct conc; cbn; intros S S';
        try discriminate S; try discriminate S'; try reflexivity; try (exact (I3k S S'));
        try (injection S as <-); try (injection S' as <-);
        try (specialize (I2k S)); try (specialize (I2k' S')); try lia;
        try (exact (I3i _ _ eq_refl S')); try (symmetry; exact (I3i _ _ eq_refl S)) ]
    end.
  Qed.

  Ltac fields := cbn [thr lock em ncell cells obl njob srv jobs res cfg with_lock with_em with_new_cell with_em_ref with_obl
                      with_cfg with_res with_jobs with_new_job with_srv with_thr].

  Lemma apply_update_load : forall u c c', apply_update u c = (c', false) -> load c' = load c.
  Proof.
    intros u c c' H. destruct u; cbn in H; try (injection H as <-; reflexivity).
    - destruct (Bool.eqb b (c_sif c)); injection H as <-; [reflexivity|discriminate].
    - destruct (n =? c_bv c); injection H as <-; [reflexivity|discriminate].
    - destruct (n =? c_float c); injection H as <-; [reflexivity|discriminate].
  Qed.

  Lemma inv_res_step : forall e s s', inv_res s -> exec1 E e s = Some s' -> inv_res s'.
  Proof.
    intros e s s' I H.
    steps H; unfold inv_res; fields;
    try (destruct I as [(k & us' & l' & K)|I]; [left; exists k, us', l'; rewrite upd_neq by congruence; exact K|right; exact I]);
    try (right; reflexivity).
    - destruct reload; cbn [orb].
      + left. exists i, us, l. rewrite upd_eq. reflexivity.
      + destruct b.
        * left. exists i, us, l. rewrite upd_eq. reflexivity.
        * destruct I as [(k & us' & l' & K)|I].
          -- left; exists k, us', l'; rewrite upd_neq by congruence; exact K.
          -- right. rewrite I. symmetry. eapply apply_update_load. eassumption.
    - exact I.
  Qed.

  Definition inv (s : state) : Prop := inv_lock s /\ inv_cells s /\ inv_res s.
  Lemma inv_step : forall e s s', inv s -> exec1 E e s = Some s' -> inv s'.
  Proof.
    intros e s s' (A & B & C) H. split; [exact (inv_lock_step _ _ _ A H)|].
    split; [exact (inv_cells_step _ _ _ B H)|exact (inv_res_step _ _ _ C H)].
  Qed.
  Lemma inv_initial : forall s, initial s -> inv s.
  Proof.
    intros s (L & M & R & J & N & T). split; [|split].
    - intros i. rewrite L. specialize (T i). destruct (thr s i) as [q p|tok p|us p]; subst p; cbn; intuition discriminate.
    - split; [exact M|]. split.
      + intros i r. specialize (T i). destruct (thr s i) as [q p|tok p|us p]; subst; discriminate.
      + intros i j r. specialize (T i). destruct (thr s i) as [q p|tok p|us p]; subst; discriminate.
    - right. exact R.
  Qed.
  Lemma inv_exec : forall evs s s', inv s -> exec E evs s = Some s' -> inv s'.
  Proof.
    induction evs as [|e evs IH]; intros s s' I H; cbn [exec] in H.
    - injection H as <-. exact I.
    - destruct (exec1 E e s) as [s1|] eqn:X; [|discriminate]. exact (IH s1 s' (inv_step _ _ _ I X) H).
  Qed.

  (** What the events of others leave alone. *)
  Definition job_steps (j j' : job) : Prop :=
    j_owner j' = j_owner j /\ j_prog j' = j_prog j /\ j_carbon j' = j_carbon j /\ j_args j' = j_args j /\
    (j_status j' = j_status j \/
     j_status j = Running /\ (j_status j' = Stopped \/
                              j_status j' = Finished (e_verdict E (j_prog j) (j_carbon j) (j_args j)))).
  Lemma job_steps_refl : forall j, job_steps j j.
  Proof. intros j. repeat split; auto. Qed.

  Lemma jobs_step : forall e s s', exec1 E e s = Some s' ->
    njob s <= njob s' /\ forall j, j < njob s -> job_steps (srv s j) (srv s' j).
  Proof.
    intros e s s' H. steps H; fields; (split; [lia|]); intros k K; try apply job_steps_refl.
    - rewrite upd_neq by lia. apply job_steps_refl.
    - destruct (j_status (srv s k)) eqn:S; try apply job_steps_refl. destruct (k <? njob s); [|apply job_steps_refl].
      repeat split; auto.
    - split_thr k job; [|apply job_steps_refl]. repeat split; auto.
    - split_thr k j; [|apply job_steps_refl]. repeat split; auto.
  Qed.

  Lemma frame : forall e s s' i, inv s -> exec1 E e s = Some s' -> e <> Run i ->
    thr s' i = thr s i /\
    (lock s = Some i -> em s' = em s /\ cells s' (em s) = cells s (em s) /\ obl s' = obl s) /\
    (forall r, snap_of (thr s i) = Some r -> cells s' r = cells s r).
  Proof.
    intros e s s' i (IL & (I1 & I2 & I3) & IR) H NE.
    assert (IB : forall k, holds (thr s k) = true -> lock s = Some k) by (intros; apply IL; assumption).
    assert (TH : thr s' i = thr s i).
    { steps H; fields; try reflexivity; apply upd_neq; congruence. }
    split; [exact TH|]. clear TH. split.
    - intros L. steps H; fields;
      try (repeat split; reflexivity);
      lazymatch goal with Q : thr s ?k = _ |- _ => specialize (IB k); rewrite Q in IB; cbn in IB end;
      try (specialize (IB eq_refl); congruence); try congruence.
      all: try (repeat split; try reflexivity; apply upd_neq; lia).
    - intros r S. pose proof (I2 i r S) as (R1 & R2).
      steps H; fields; try reflexivity; try (apply upd_neq; congruence); try (apply upd_neq; lia).
  Qed.

  (** ** Late phase of a request *)
  Definition late (m : manager) (v : vresult) (SF : bool -> Prop) (s : state) (p : rpc) : Prop :=
    match p with
    | QPut snap j | QAwait snap j =>
        cells s snap = m /\ j < njob s /\
        e_verdict E (j_prog (srv s j)) (j_carbon (srv s j)) (j_args (srv s j)) = v /\
        (forall w, j_status (srv s j) = Finished w -> w = v)
    | QDel snap j r => cells s snap = m /\ (r = None \/ r = Some v)
    | QWaitC snap es | QInstall snap es => cells s snap = m /\ v = VFailed es
    | QFail _ es => cells s (em s) = m /\ v = VFailed es
    | QConv _ sf es acc =>
        cells s (em s) = m /\ SF sf /\
        exists dn rs, v = VFailed (dn ++ es) /\ convert m dn = Some rs /\ acc = combine rs (map (e_ce E sf) dn)
    | QClearC r | QUnlock r => exists sf, SF sf /\ r = answer E sf m v
    | QDone r => r = RCancelled \/ exists sf, SF sf /\ r = answer E sf m v
    | _ => False
    end.

  Lemma convert_app : forall m a b ra, convert m a = Some ra ->
    convert m (a ++ b) = match convert m b with Some rb => Some (ra ++ rb) | None => None end.
  Proof.
    induction a as [|x a IH]; intros b ra H; cbn [convert app] in *.
    - injection H as <-. destruct (convert m b); reflexivity.
    - destruct (convert_error m x); [|discriminate]. destruct (convert m a) as [ra'|]; [|discriminate].
      injection H as <-. rewrite (IH b ra' eq_refl). destruct (convert m b); reflexivity.
  Qed.
  Lemma convert_length : forall m a ra, convert m a = Some ra -> length ra = length a.
  Proof.
    induction a as [|x a IH]; intros ra H; cbn [convert] in H; [injection H as <-; reflexivity|].
    destruct (convert_error m x); [|discriminate]. destruct (convert m a) as [ra'|]; [|discriminate].
    injection H as <-. cbn. f_equal. apply IH. reflexivity.
  Qed.
  Lemma combine_app : forall A B (a a' : list A) (b b' : list B), length a = length b ->
    combine (a ++ a') (b ++ b') = combine a b ++ combine a' b'.
  Proof.
    induction a as [|x a IH]; intros a' [|y b] b' L; try discriminate; [reflexivity|].
    cbn. f_equal. apply IH. cbn in L. lia.
  Qed.
  Lemma forallb_combine : forall rs (l : list (option nat)), length rs = length l ->
    forallb has_reason (combine rs l)
    = forallb (fun r => match p_reason r with Some _ => true | None => false end) rs.
  Proof.
    induction rs as [|r rs IH]; intros [|x l] L; try discriminate; [reflexivity|].
    cbn. rewrite IH by (cbn in L; lia). reflexivity.
  Qed.

  Lemma late_own : forall m v SF s i q p s' p',
    late m v SF s p -> SF (c_sif (cfg s)) -> step_request E i q p s = Some (s', p') -> late m v SF s' p'.
  Proof.
    intros m v SF s i q p s' p' L SC H. destruct p; cbn [late] in L; try contradiction; cbn [step_request] in H.
    - injection H as <- <-. cbn [late]. destruct (q_token q); fields; exact L.
    - destruct L as (M & JB & V & W). destruct (j_status (srv s job)) eqn:S; [discriminate| |];
        injection H as <- <-; cbn [late]; (split; [exact M|]).
      + right. f_equal. apply W. reflexivity.
      + left. reflexivity.
    - destruct L as (M & R). injection H as <- <-.
      assert (C : cells (match q_token q with
            | Some t => match jobs s t with
                        | Some j' => if j' =? job then with_jobs (upd (jobs s) t None) s else s
                        | None => s
                        end
            | None => s
            end) snap = m).
      { destruct (q_token q) as [t|]; [|exact M]. destruct (jobs s t) as [j'|]; [|exact M]. destruct (j' =? job); exact M. }
      destruct R as [->| ->]; [left; reflexivity|]. destruct v as [| |es]; cbn [late].
      + right. exists (c_sif (cfg s)). split; [exact SC|reflexivity].
      + right. exists (c_sif (cfg s)). split; [exact SC|reflexivity].
      + split; [exact C|reflexivity].
    - destruct (lock s); [discriminate|]. injection H as <- <-. exact L.
    - injection H as <- <-. cbn [late]. fields. exact L.
    - injection H as <- <-. destruct L as (M & V). cbn [late]. split; [exact M|]. split; [exact SC|].
      exists [], []. split; [exact V|]. split; reflexivity.
    - destruct L as (M & SFs & dn & rs & V & CV & A). destruct es as [|e es].
      + injection H as <- <-. rewrite app_nil_r in V.
        assert (R : exists sf0, SF sf0 /\ (if forallb has_reason acc then RFailed acc else RCrash) = answer E sf0 m v).
        { exists sf. split; [exact SFs|]. subst v acc. cbn [answer]. unfold reports. rewrite CV.
          rewrite forallb_combine by (rewrite map_length; exact (convert_length _ _ _ CV)). reflexivity. }
        destruct conc; exact R.
      + rewrite M in H. destruct (convert_error m e) as [r|] eqn:CE.
        * injection H as <- <-. cbn [late]. split; [exact M|]. split; [exact SFs|].
          exists (dn ++ [e]), (rs ++ [r]). rewrite <- app_assoc. cbn [app]. split; [exact V|]. split.
          -- rewrite (convert_app _ _ _ _ CV). cbn [convert]. rewrite CE. reflexivity.
          -- subst acc. rewrite map_app, combine_app by (rewrite map_length; exact (convert_length _ _ _ CV)).
             reflexivity.
        * assert (R : exists sf0, SF sf0 /\ RCrash = answer E sf0 m v).
          { exists sf. split; [exact SFs|]. subst v. cbn [answer]. unfold reports.
            rewrite (convert_app _ _ _ _ CV). cbn [convert]. rewrite CE. reflexivity. }
          injection H as <- <-. destruct conc; exact R.
    - injection H as <- <-. exact L.
    - injection H as <- <-. right. exact L.
    - discriminate.
  Qed.

  Lemma late_frame : forall m v SF e s s' i q p, inv s -> thr s i = TReq q p ->
    exec1 E e s = Some s' -> e <> Run i -> late m v SF s p -> late m v SF s' p.
  Proof.
    intros m v SF e s s' i q p I T H NE L.
    destruct (frame _ _ _ i I H NE) as (_ & FL & FS). rewrite T in FS.
    pose proof (jobs_step _ _ _ H) as (NJ & JS).
    assert (LK : crit p = true -> lock s = Some i).
    { intros C. destruct I as (IL & _). apply IL. rewrite T. exact C. }
    destruct p; cbn [late] in *; try contradiction; try exact L;
      try (rewrite (FS _ eq_refl); exact L);
      try (destruct (FL (LK eq_refl)) as (-> & -> & _); exact L);
      destruct L as (M & JB & V & W); rewrite (FS _ eq_refl);
      destruct (JS _ JB) as (_ & J1 & J2 & J3 & J4); rewrite J1, J2, J3;
      (split; [exact M|]; split; [lia|]; split; [exact V|]; intros w; destruct J4 as [-> |[_ [-> | ->]]]; [apply W|discriminate|congruence]).
  Qed.

  (** ** The whole request *)
  Section Request.
    Context (c : config) (q : request).
    Definition m_empty : manager := {| items := []; crules := [] |}.
    Definition tropts : topts :=
      {| t_sif := c_sif c; t_bv := c_bv c; t_float := c_float c; t_mypy := c_mypy c;
         t_res := load c; t_obl := e_obl0 E |}.
    Definition regs_of := fst (fst (e_tr E tropts q)).
    Definition out_of := snd (fst (e_tr E tropts q)).
    Definition good (p : nat) (m : manager) : Prop :=
      out_of = TProg p /\ exists ps, translation m_empty regs_of = Some (ps, m).
    Definition verd (p : nat) : vresult :=
      let carbon := match c_backend c with Silicon => false | _ => true end in
      e_verdict E p carbon {| a_carbon := carbon;
                              a_dbc := if carbon then false else c_dbc c; a_tools := c_tools c |}.
    Definition conc_ok := can_run_concurrently c q.

    Definition inv_req (s : state) (i : nat) (p : rpc) : Prop :=
      match p with
      | QStart => True
      | QWait conc | QReset conc => conc = conc_ok
      | QClear conc => conc = conc_ok /\ obl s = e_obl0 E
      | QReg conc todo o => conc = conc_ok /\ o = out_of /\
          exists dn ps, regs_of = dn ++ todo /\ translation m_empty dn = Some (ps, cells s (em s))
      | QSnap p => conc_ok = true /\ good p (cells s (em s))
      | QVerify p => good p (cells s (em s))
      | QClearS p snap | QRelease p snap | QArgs p snap => conc_ok = true /\ good p (cells s snap)
      | QSubmit p snap a => conc_ok = true /\ good p (cells s snap) /\ a = build_args c
      | QPut _ _ | QAwait _ _ | QDel _ _ _ | QWaitC _ _ | QInstall _ _ | QFail _ _ | QConv _ _ _ _ =>
          exists p0 m, good p0 m /\ late m (verd p0) (eq (c_sif c)) s p
      | QClearC r | QUnlock r => r = alone E c q
      | QDone r => r = alone E c q \/ r = RCancelled
      end.

    Lemma good_alone : forall p m, good p m -> alone E c q = answer E (c_sif c) m (verd p).
    Proof.
      intros p m (O & ps & T). unfold alone. fold tropts. unfold out_of, regs_of in *.
      destruct (e_tr E tropts q) as [[rg o] ob]. cbn [fst snd] in *. unfold m_empty in T. rewrite T, O. reflexivity.
    Qed.

    Lemma conc_sif : conc_ok = true -> c_sif c = false.
    Proof.
      unfold conc_ok, can_run_concurrently. intros H. apply negb_true_iff in H.
      apply orb_false_iff in H. destruct H as [H _]. apply orb_false_iff in H. destruct H as [H _].
      apply orb_false_iff in H. destruct H as [_ H]. exact H.
    Qed.
    Lemma conc_verd : forall p, conc_ok = true ->
      e_verdict E p (submit_carbon c) (build_args c) = verd p.
    Proof.
      intros p H. unfold conc_ok, can_run_concurrently in H. apply negb_true_iff in H.
      apply orb_false_iff in H. destruct H as [H _]. apply orb_false_iff in H. destruct H as [_ H].
      unfold verd, submit_carbon, build_args. destruct (c_backend c); try discriminate; reflexivity.
    Qed.
    Lemma serial_verd : forall p, e_verdict E p (serial_carbon c) (serial_args c) = verd p.
    Proof. intros p. unfold verd, serial_carbon, serial_args, serial_carbon. destruct (c_backend c); reflexivity. Qed.

    Lemma translation_app : forall a b m ps m1, translation m a = Some (ps, m1) ->
      translation m (a ++ b) = match translation m1 b with Some (qs, m2) => Some (ps ++ qs, m2) | None => None end.
    Proof.
      induction a as [|g a IH]; intros b m ps m1 H; cbn [translation app] in *.
      - injection H as <- <-. destruct (translation m b) as [[? ?]|]; reflexivity.
      - destruct (to_position _ _ _ _ _ _ m) as [[pp mm]|]; [|discriminate].
        destruct (translation mm a) as [[ps' m2]|] eqn:T; [|discriminate]. injection H as <- <-.
        rewrite (IH b mm ps' m2 T). destruct (translation m2 b) as [[? ?]|]; reflexivity.
    Qed.

    Lemma late_to_req : forall p0 m s i p, good p0 m -> late m (verd p0) (eq (c_sif c)) s p -> inv_req s i p.
    Proof.
      intros p0 m s i p G L. destruct p; cbn [late] in L; try contradiction;
        try (cbn [inv_req]; exists p0, m; split; [exact G|exact L]).
      - destruct L as (sf & <- & ->). cbn [inv_req]. symmetry. apply good_alone. exact G.
      - destruct L as (sf & <- & ->). cbn [inv_req]. symmetry. apply good_alone. exact G.
      - destruct L as [->|(sf & <- & ->)]; cbn [inv_req]; [right; reflexivity|].
        left. symmetry. apply good_alone. exact G.
    Qed.

    Lemma req_own : forall s i p s' p', inv s -> thr s i = TReq q p -> cfg s = c ->
      inv_req s i p -> step_request E i q p s = Some (s', p') -> inv_req s' i p'.
    Proof.
      intros s i p s' p' I T C R H.
      assert (RS : crit p = true -> res s = load c).
      { intros K. destruct I as (IL & _ & [(k & us & l & TK)|IR]); [|rewrite <- C; exact IR]. exfalso.
        assert (A : lock s = Some i) by (apply IL; rewrite T; exact K).
        assert (B : lock s = Some k) by (apply IL; rewrite TK; reflexivity).
        assert (k = i) by congruence. subst k. congruence. }
      assert (LT : forall p0 m, good p0 m -> late m (verd p0) (eq (c_sif c)) s p -> inv_req s' i p').
      { intros p0 m G L. apply (late_to_req p0 m); [exact G|].
        apply (late_own m (verd p0) (eq (c_sif c)) s i q p s' p' L); [rewrite C; reflexivity|exact H]. }
      destruct p; cbn [inv_req] in R;
        try (destruct R as (p0 & m & G & L); exact (LT p0 m G L)); clear LT; cbn [step_request] in H.
      - injection H as <- <-. cbn [inv_req]. rewrite C. reflexivity.
      - destruct (lock s); [discriminate|]. injection H as <- <-. exact R.
      - injection H as <- <-. split; [exact R|reflexivity].
      - destruct R as (R1 & R2).
        assert (O : options conc s = tropts).
        { unfold options, tropts. rewrite C, (RS eq_refl), R2. f_equal.
          destruct conc; [|reflexivity]. symmetry. apply conc_sif. symmetry. exact R1. }
        rewrite O in H. destruct (e_tr E tropts q) as [[rg o] ob] eqn:X. injection H as <- <-.
        cbn [inv_req]. split; [exact R1|]. unfold out_of, regs_of. rewrite X. split; [reflexivity|].
        exists [], []. split; [reflexivity|]. fields. rewrite upd_eq. reflexivity.
      - destruct R as (R1 & R2 & dn & ps & RG & TR). destruct todo as [|g todo].
        + rewrite app_nil_r in RG. rewrite <- RG in TR. destruct o; injection H as <- <-; cbn [inv_req].
          * unfold alone. fold tropts. unfold out_of, regs_of in *. destruct (e_tr E tropts q) as [[rg o'] ob].
            cbn [fst snd] in *. unfold m_empty in TR. rewrite TR, <- R2. reflexivity.
          * unfold alone. fold tropts. unfold out_of, regs_of in *. destruct (e_tr E tropts q) as [[rg o'] ob].
            cbn [fst snd] in *. unfold m_empty in TR. rewrite TR, <- R2. reflexivity.
          * assert (G : good p (cells s (em s))) by (split; [symmetry; exact R2|exists ps; exact TR]).
            destruct conc; cbn [inv_req]; [split; [symmetry; exact R1|exact G]|exact G].
        + destruct (to_position _ _ _ _ _ _ _) as [[pp mm]|] eqn:TP; injection H as <- <-; cbn [inv_req].
          * split; [exact R1|]. split; [exact R2|]. exists (dn ++ [g]), (ps ++ [pp]).
            split; [rewrite <- app_assoc; exact RG|]. rewrite (translation_app _ _ _ _ _ TR). cbn [translation].
            rewrite TP. fields. rewrite upd_eq. reflexivity.
          * unfold alone. fold tropts. unfold regs_of in *. destruct (e_tr E tropts q) as [[rg o'] ob].
            cbn [fst snd] in *. unfold m_empty in TR. rewrite RG, (translation_app _ _ _ _ _ TR).
            cbn [translation]. rewrite TP. reflexivity.
      - injection H as <- <-. destruct R as (R1 & R2). cbn [inv_req]. split; [exact R1|].
        fields. rewrite upd_eq. exact R2.
      - injection H as <- <-. destruct R as (R1 & R2). cbn [inv_req]. split; [exact R1|].
        fields. rewrite upd_neq; [exact R2|].
        destruct I as (_ & (_ & I2 & _) & _). apply (I2 i). rewrite T. reflexivity.
      - injection H as <- <-. exact R.
      - injection H as <- <-. destruct R as (R1 & R2). cbn [inv_req]. rewrite C. repeat split; try assumption; apply R2.
      - injection H as <- <-. destruct R as (R1 & R2 & ->). cbn [inv_req]. exists p, (cells s snap).
        split; [exact R2|]. cbn [late]. fields. rewrite upd_eq. cbn [j_prog j_carbon j_args j_status].
        split; [reflexivity|]. split; [lia|]. rewrite C. split; [apply conc_verd; exact R1|discriminate].
      - rewrite C, serial_verd in H. injection H as <- <-.
        pose proof (good_alone _ _ R) as GA.
        destruct (verd p) as [| |es] eqn:V; cbn [inv_req].
        + rewrite GA. reflexivity.
        + rewrite GA. reflexivity.
        + exists p, (cells s (em s)). split; [exact R|]. rewrite V. split; reflexivity.
      - injection H as <- <-. exact R.
      - injection H as <- <-. left. exact R.
      - discriminate.
    Qed.

    Lemma req_frame : forall e s s' i p, inv s -> thr s i = TReq q p ->
      exec1 E e s = Some s' -> e <> Run i -> inv_req s i p -> inv_req s' i p.
    Proof.
      intros e s s' i p I T H NE R.
      destruct (frame _ _ _ i I H NE) as (_ & FL & FS). rewrite T in FS.
      assert (LK : crit p = true -> lock s = Some i).
      { intros K. destruct I as (IL & _). apply IL. rewrite T. exact K. }
      destruct p; cbn [inv_req] in *; try exact R;
        try (destruct R as (p0 & m & G & L); exists p0, m; split; [exact G|];
             exact (late_frame _ _ _ _ _ _ _ _ _ I T H NE L));
        try (rewrite (FS _ eq_refl); exact R);
        try (destruct (FL (LK eq_refl)) as (_ & _ & ->); exact R);
        try (destruct (FL (LK eq_refl)) as (-> & -> & _); exact R).
    Qed.
  End Request.

  Lemma exec1_thr : forall e s s' i q p, exec1 E e s = Some s' -> thr s i = TReq q p ->
    exists p', thr s' i = TReq q p' /\
      (e <> Run i -> p' = p) /\
      (e = Run i -> exists s1, step_request E i q p s = Some (s1, p') /\ s' = with_thr i (TReq q p') s1).
  Proof.
    intros e s s' i q p H T. destruct e as [k|j]; cbn [exec1] in H.
    - unfold step in H. destruct (Nat.eq_dec k i) as [->|NE].
      + rewrite T in H. destruct (step_request E i q p s) as [[s1 p']|] eqn:X; [|discriminate].
        injection H as <-. exists p'. split; [cbn; apply upd_eq|]. split; [congruence|].
        intros _. exists s1. split; reflexivity.
      + exists p. split; [|split; [reflexivity|congruence]].
        destruct (thr s k) as [q' p0|tok p0|us p0].
        * destruct (step_request E k q' p0 s) as [[s1 p']|] eqn:X; [|discriminate]. injection H as <-.
          cbn. rewrite upd_neq by congruence. rewrite <- T. clear -X. unfold step_request in X.
          repeat match type of X with
          | context [match ?x with _ => _ end] =>
            match x with context [match _ with _ => _ end] => fail 1 | _ => destruct x eqn:? end
          end; try discriminate X; injection X as <- <-; reflexivity.
        * destruct (step_cancel tok p0 s) as [[s1 p']|] eqn:X; [|discriminate]. injection H as <-.
          cbn. rewrite upd_neq by congruence. rewrite <- T. clear -X. unfold step_cancel in X.
          repeat match type of X with
          | context [match ?x with _ => _ end] =>
            match x with context [match _ with _ => _ end] => fail 1 | _ => destruct x eqn:? end
          end; try discriminate X; injection X as <- <-; reflexivity.
        * destruct (step_reconf k us p0 s) as [[s1 p']|] eqn:X; [|discriminate]. injection H as <-.
          cbn. rewrite upd_neq by congruence. rewrite <- T. clear -X. unfold step_reconf in X.
          repeat match type of X with
          | context [match ?x with _ => _ end] =>
            match x with context [match _ with _ => _ end] => fail 1 | _ => destruct x eqn:? end
          end; try discriminate X; injection X as <- <-; reflexivity.
    - exists p. split; [|split; [reflexivity|discriminate]]. unfold finish_job in H.
      destruct (j <? njob s); [|discriminate]. destruct (j_status (srv s j)); try discriminate.
      injection H as <-. exact T.
  Qed.

  Lemma step_request_cfg : forall i q p s s1 p', step_request E i q p s = Some (s1, p') -> cfg s1 = cfg s.
  Proof.
    intros i q p s s1 p' X. unfold step_request in X.
    repeat match type of X with
    | context [match ?x with _ => _ end] =>
      match x with context [match _ with _ => _ end] => fail 1 | _ => destruct x eqn:? end
    end; try discriminate X; injection X as <- <-; reflexivity.
  Qed.

  Lemma inv_req_thr : forall c q s i k t p, inv_req c q s i p -> inv_req c q (with_thr k t s) i p.
  Proof. intros c q s i k t p H. destruct p; exact H. Qed.

  Lemma isolation : forall c q i evs s s' p r,
    inv s -> thr s i = TReq q p -> inv_req c q s i p -> (active s i -> cfg s = c) ->
    (forall a b s1, evs = a ++ b -> exec E a s = Some s1 -> active s1 i -> cfg s1 = c) ->
    exec E evs s = Some s' -> thr s' i = TReq q (QDone r) ->
    r = alone E c q \/ r = RCancelled.
  Proof.
    intros c q i. induction evs as [|e evs IH]; intros s s' p r I T R AC HC X D; cbn [exec] in X.
    - injection X as <-. rewrite T in D. injection D as ->. exact R.
    - destruct (exec1 E e s) as [s1|] eqn:X1; [|discriminate].
      destruct (exec1_thr _ _ _ _ _ _ X1 T) as (p' & T' & NR & OR).
      assert (A1 : active s1 i -> cfg s1 = c).
      { intros A. apply (HC [e] evs s1); [reflexivity|cbn; rewrite X1; reflexivity|exact A]. }
      assert (R' : inv_req c q s1 i p').
      { assert (DE : e = Run i \/ e <> Run i).
        { destruct e as [k|j]; [|right; discriminate]. destruct (Nat.eq_dec k i) as [->|]; [left; reflexivity|right; congruence]. }
        destruct DE as [->|NE].
        - destruct (OR eq_refl) as (s2 & SR & ->).
          destruct p; try (apply inv_req_thr; refine (req_own c q s i _ s2 p' I T (AC _) R SR);
                           unfold active; rewrite T; exact Logic.I).
          + (* the first step *)
            apply inv_req_thr. refine (req_own c q s i _ s2 p' I T _ R SR).
            cbn [step_request] in SR. injection SR as <- <-.
            apply A1. unfold active. rewrite T'. exact Logic.I.
          + discriminate SR.
        - rewrite (NR NE) in *. exact (req_frame c q e s s1 i p I T X1 NE R). }
      apply (IH s1 s' p' r (inv_step _ _ _ I X1) T' R' A1).
      + intros a b s2 -> XA A. apply (HC (e :: a) b s2); [reflexivity|cbn; rewrite X1; exact XA|exact A].
      + exact X.
      + exact D.
  Qed.

  (** ** Jobs and tokens *)
  Lemma token_step : forall e s s' i, exec1 E e s = Some s' -> token_of (thr s' i) = token_of (thr s i).
  Proof.
    intros e s s' i H. steps H; fields; try reflexivity;
    lazymatch goal with Q : thr s ?k = _ |- _ => split_thr i k; [rewrite Q; reflexivity|reflexivity] end.
  Qed.

  Definition entry_of (t : thread) (j : nat) : Prop :=
    match t with TReq _ (QAwait _ j') | TReq _ (QDel _ j' _) => j' = j | _ => False end.

  Definition inv_jobs (s : state) : Prop :=
    (forall j w, j < njob s -> j_status (srv s j) = Finished w ->
       w = e_verdict E (j_prog (srv s j)) (j_carbon (srv s j)) (j_args (srv s j))) /\
    (forall i j, job_of (thr s i) = Some j -> j < njob s /\ j_owner (srv s j) = i) /\
    (forall t j, jobs s t = Some j -> exists i, entry_of (thr s i) j /\ token_of (thr s i) = Some t) /\
    (forall i q snap j r, thr s i = TReq q (QDel snap j r) ->
       j_status (srv s j) = match r with Some v => Finished v | None => Stopped end).

  Lemma entry_job : forall t j, entry_of t j -> job_of t = Some j.
  Proof. intros [q p|tok p|us p] j H; cbn in H; try contradiction. destruct p; cbn in *; try contradiction; congruence. Qed.

  Lemma status_final : forall j j', job_steps j j' -> j_status j <> Running -> j_status j' = j_status j.
  Proof. intros j j' (_ & _ & _ & _ & [H|[H _]]) N; [exact H|contradiction]. Qed.

  Lemma jobs_map_step : forall e s s' t, exec1 E e s = Some s' ->
    jobs s' t = jobs s t \/ jobs s' t = None \/
    exists i j, e = Run i /\ jobs s' t = Some j /\ entry_of (thr s' i) j /\ token_of (thr s' i) = Some t.
  Proof.
    intros e s s' t H. steps H; fields; auto.
    - split_thr t n; [|left; reflexivity]. right. right. exists i, job. rewrite Nat.eqb_refl. cbn. auto.
    - split_thr t n; auto.
    - split_thr t n; auto.
    - split_thr t n; auto.
    - split_thr t n; auto.
  Qed.
  Lemma entry_step : forall e s s' i j, exec1 E e s = Some s' -> entry_of (thr s i) j ->
    entry_of (thr s' i) j \/ forall t, token_of (thr s i) = Some t -> jobs s' t <> Some j.
  Proof.
    intros e s s' i j H EN. steps H; fields; try (left; exact EN);
    lazymatch goal with Q : thr s ?k = _ |- _ =>
      split_thr i k; [|left; exact EN]; rewrite Q in *; cbn in EN; try contradiction; subst; cbn end;
    try (left; reflexivity); try (right; intros t T; rewrite T in *; discriminate);
    right; intros t T;
    match goal with Q : q_token ?q = Some ?n, T' : q_token ?q = Some t |- _ =>
      assert (t = n) by congruence; subst t; clear T' end;
    rewrite ?Nat.eqb_refl; try discriminate;
    repeat match goal with Q : (_ =? _) = false |- _ => apply Nat.eqb_neq in Q end; congruence.
  Qed.

  Lemma inv_jobs_step : forall e s s', inv_jobs s -> exec1 E e s = Some s' -> inv_jobs s'.
  Proof.
    intros e s s' (J1 & J2 & J3 & J4) H. pose proof (jobs_step _ _ _ H) as (NJ & JS).
    split; [|split; [|split]].
    - intros j w JB F.
      assert (D : j < njob s \/ j = njob s /\ njob s' = S (njob s)).
      { clear - H JB NJ. steps H; cbn [njob with_lock with_em with_new_cell with_em_ref with_obl with_cfg with_res
          with_jobs with_new_job with_srv with_thr] in *; lia. }
      destruct D as [JB'|[-> N]].
      + specialize (JS j JB'). destruct JS as (_ & P1 & P2 & P3 & P4). rewrite P1, P2, P3.
        destruct P4 as [P4|(_ & [P4|P4])]; [apply J1; congruence|congruence|congruence].
      + clear - H F N. steps H; cbn [njob srv with_lock with_em with_new_cell with_em_ref with_obl with_cfg with_res
          with_jobs with_new_job with_srv with_thr] in *; try lia. rewrite upd_eq in F. discriminate F.
    - intros i j K.
      assert (D : job_of (thr s i) = Some j \/
                  j = njob s /\ j < njob s' /\ j_owner (srv s' j) = i).
      { clear - H K. steps H; cbn [thr njob srv with_lock with_em with_new_cell with_em_ref with_obl with_cfg with_res
          with_jobs with_new_job with_srv with_thr] in *;
          try (left; exact K);
          lazymatch goal with Q : thr s ?k = _ |- _ =>
            revert K; split_thr i k; intros K; [|left; exact K]; cbn in K; try discriminate K; try (destruct conc; discriminate K);
            try (left; rewrite Q; exact K) end.
        injection K as <-. right. repeat split; [lia|]. rewrite Nat.eqb_refl. reflexivity. }
      destruct D as [D|(-> & A & B)].
      + destruct (J2 i j D) as (A & B). split; [lia|]. destruct (JS j A) as (O & _). congruence.
      + split; assumption.
    - intros t j K. destruct (jobs_map_step _ _ _ t H) as [M|[M|(i & j' & -> & M & EN & TK)]].
      + rewrite M in K. destruct (J3 t j K) as (i & EN & TK).
        destruct (entry_step _ _ _ i j H EN) as [EN'|NO].
        * exists i. split; [exact EN'|]. rewrite (token_step _ _ _ _ H). exact TK.
        * exfalso. apply (NO t TK). congruence.
      + congruence.
      + assert (j' = j) by congruence. subst j'. exists i. split; assumption.
    - intros i q snap j r K.
      assert (D : thr s i = TReq q (QDel snap j r) \/
                  exists snap', thr s i = TReq q (QAwait snap' j) /\
                    j_status (srv s j) = match r with Some v => Finished v | None => Stopped end).
      { clear - H K. steps H; cbn [thr njob srv with_lock with_em with_new_cell with_em_ref with_obl with_cfg with_res
          with_jobs with_new_job with_srv with_thr] in *;
          try (left; exact K);
          lazymatch goal with Q : thr s ?k = _ |- _ =>
            revert K; split_thr i k; intros K; [|left; exact K]; try discriminate K; try (destruct conc; discriminate K) end;
          injection K as <- <- <- <-; right; eexists; (split; [eassumption|assumption]). }
      assert (F : j < njob s /\ j_status (srv s j) = match r with Some v => Finished v | None => Stopped end).
      { destruct D as [D|(snap' & D & F)].
        - split; [apply (J2 i); rewrite D; reflexivity|exact (J4 _ _ _ _ _ D)].
        - split; [apply (J2 i); rewrite D; reflexivity|exact F]. }
      destruct F as (JB & F). rewrite (status_final _ _ (JS j JB)); [exact F|]. rewrite F. destruct r; discriminate.
  Qed.

  Lemma inv_jobs_initial : forall s, initial s -> inv_jobs s.
  Proof.
    intros s (L & M & R & J & N & T). split; [|split; [|split]].
    - intros j w B. lia.
    - intros i j K. specialize (T i). destruct (thr s i) as [q p|tok p|us p]; subst; discriminate.
    - intros t j K. rewrite J in K. discriminate.
    - intros i q snap j r K. specialize (T i). rewrite K in T. discriminate.
  Qed.
  Lemma inv_jobs_exec : forall evs s s', inv_jobs s -> exec E evs s = Some s' -> inv_jobs s'.
  Proof.
    induction evs as [|e evs IH]; intros s s' I H; cbn [exec] in H.
    - injection H as <-. exact I.
    - destruct (exec1 E e s) as [s1|] eqn:X; [|discriminate]. exact (IH s1 s' (inv_jobs_step _ _ _ I X) H).
  Qed.
  Lemma reachable_inv : forall s, reachable E s -> inv s /\ inv_jobs s.
  Proof.
    intros s (s0 & evs & I & X). split.
    - exact (inv_exec _ _ _ (inv_initial _ I) X).
    - exact (inv_jobs_exec _ _ _ (inv_jobs_initial _ I) X).
  Qed.

  (** Stopped jobs were stopped by a cancellation. *)
  Definition inv_cancel (s : state) : Prop :=
    (forall k t j, thr s k = TCancel (Some t) (CFound j) ->
       j < njob s /\ token_of (thr s (j_owner (srv s j))) = Some t) /\
    (forall j, j < njob s -> j_status (srv s j) = Stopped ->
       exists k tok, thr s k = TCancel tok CDone /\
                     (tok = None \/ tok = token_of (thr s (j_owner (srv s j))))).

  Lemma cancel_thr : forall e s s' k tok, exec1 E e s = Some s' -> thr s k = TCancel tok CDone -> thr s' k = TCancel tok CDone.
  Proof.
    intros e s s' k tok H T. steps H; fields; try exact T; rewrite upd_neq by congruence; exact T.
  Qed.

  Lemma inv_cancel_step : forall e s s', inv_jobs s -> inv_cancel s -> exec1 E e s = Some s' -> inv_cancel s'.
  Proof.
    intros e s s' (J1 & J2 & J3 & J4) (I1 & I2) H. pose proof (jobs_step _ _ _ H) as (NJ & JS).
    assert (OW : forall j, j < njob s -> token_of (thr s' (j_owner (srv s' j))) = token_of (thr s (j_owner (srv s j)))).
    { intros j JB. destruct (JS j JB) as (-> & _). apply (token_step _ _ _ _ H). }
    split.
    - intros k t j K.
      assert (D : thr s k = TCancel (Some t) (CFound j) \/ jobs s t = Some j).
      { clear - H K. steps H; cbn [thr njob srv with_lock with_em with_new_cell with_em_ref with_obl with_cfg with_res
          with_jobs with_new_job with_srv with_thr] in *;
          try (left; exact K);
          lazymatch goal with Q : thr s ?k0 = _ |- _ =>
            revert K; split_thr k k0; intros K; [|left; exact K]; try discriminate K end.
        injection K as <- <-. right. assumption. }
      assert (F : j < njob s /\ token_of (thr s (j_owner (srv s j))) = Some t).
      { destruct D as [D|D]; [exact (I1 _ _ _ D)|]. destruct (J3 t j D) as (i & EN & TK).
        destruct (J2 i j (entry_job _ _ EN)) as (A & B). split; [exact A|]. rewrite B. exact TK. }
      destruct F as (A & B). split; [lia|]. rewrite (OW j A). exact B.
    - intros j JB ST.
      assert (D : j < njob s \/ j = njob s /\ j_status (srv s' j) = Running).
      { clear - H JB. steps H; cbn [njob srv with_lock with_em with_new_cell with_em_ref with_obl with_cfg with_res
          with_jobs with_new_job with_srv with_thr] in *; try (left; lia).
        destruct (Nat.eq_dec j (njob s)) as [->|]; [right|left; lia]. rewrite upd_eq. split; reflexivity. }
      destruct D as [A|(_ & D)]; [|congruence]. rewrite (OW j A).
      destruct (j_status (srv s j)) as [|w|] eqn:SJ.
      + (* stopped by this event *)
        assert (D : exists k tok, thr s' k = TCancel tok CDone /\
                     (tok = None \/ exists t, tok = Some t /\ thr s k = TCancel tok (CFound j))).
        { clear - H ST SJ. steps H; cbn [thr njob srv with_lock with_em with_new_cell with_em_ref with_obl with_cfg with_res
            with_jobs with_new_job with_srv with_thr] in *; try congruence.
          - revert ST. split_thr j (njob s); intros ST; [discriminate ST|congruence].
          - exists i, None. rewrite upd_eq. split; [reflexivity|left; reflexivity].
          - revert ST. split_thr j job; intros ST; [|congruence]. exists i, tok.
            rewrite Nat.eqb_refl. split; [reflexivity|]. destruct tok as [t|]; [|left; reflexivity].
            right. exists t. split; [reflexivity|assumption].
          - revert ST. split_thr j j0; intros ST; [discriminate ST|congruence]. }
        destruct D as (k & tok & TK & [->|(t & -> & CF)]).
        * exists k, None. split; [exact TK|left; reflexivity].
        * exists k, (Some t). split; [exact TK|]. right. symmetry. apply (I1 _ _ _ CF).
      + rewrite (status_final _ _ (JS j A)) in ST by congruence. congruence.
      + destruct (I2 j A SJ) as (k & tok & TK & O). exists k, tok. split; [exact (cancel_thr _ _ _ _ _ H TK)|exact O].
  Qed.

  Lemma inv_cancel_initial : forall s, initial s -> inv_cancel s.
  Proof.
    intros s (L & M & R & J & N & T). split.
    - intros k t j K. specialize (T k). rewrite K in T. discriminate.
    - intros j B. lia.
  Qed.
  Lemma inv_cancel_reachable : forall s, reachable E s -> inv_cancel s.
  Proof.
    intros s (s0 & evs & I & X). pose proof (inv_jobs_initial _ I) as IJ. pose proof (inv_cancel_initial _ I) as IC.
    clear I. revert s0 IJ IC X. induction evs as [|e evs IH]; intros s0 IJ IC X; cbn [exec] in X.
    - injection X as <-. exact IC.
    - destruct (exec1 E e s0) as [s1|] eqn:X1; [|discriminate].
      apply (IH s1); [exact (inv_jobs_step _ _ _ IJ X1)|exact (inv_cancel_step _ _ _ IJ IC X1)|exact X].
  Qed.

  (** ** A request that was cancelled was cancelled by someone *)
  Definition inv_done (s : state) : Prop :=
    forall i q, thr s i = TReq q (QDone RCancelled) ->
      exists k tok, thr s k = TCancel tok CDone /\ (tok = None \/ tok = q_token q).

  (** [alone] is never "cancelled". *)
  Lemma alone_not_cancelled : forall c q, alone E c q <> RCancelled.
  Proof.
    intros c q. unfold alone. destruct (e_tr E _ q) as [[rg o] ob]. destruct (translation _ rg) as [[ps m]|]; [|discriminate].
    destruct o; try discriminate. unfold answer. destruct (e_verdict E _ _ _); try discriminate.
    unfold reports. destruct (convert m es); [|discriminate]. destruct (forallb _ _); discriminate.
  Qed.

  Definition carries (p : rpc) : bool := match p with QClearC RCancelled | QUnlock RCancelled => true | _ => false end.
  Lemma no_carry_step : forall e s s', (forall i q p, thr s i = TReq q p -> carries p = false) ->
    exec1 E e s = Some s' -> (forall i q p, thr s' i = TReq q p -> carries p = false).
  Proof.
    intros e s s' I H i q p K.
    steps H; cbn [thr njob srv with_lock with_em with_new_cell with_em_ref with_obl with_cfg with_res
          with_jobs with_new_job with_srv with_thr] in *; try exact (I _ _ _ K);
    lazymatch goal with Q : thr s ?k0 = _ |- _ =>
      pose proof (I _ _ _ Q) as IQ || idtac; revert K; split_thr i k0; intros K; [|exact (I _ _ _ K)]; try discriminate K;
      injection K as <- <- end; try reflexivity; try (destruct conc; reflexivity); exact IQ.
  Qed.

  Lemma inv_done_step : forall e s s', inv_jobs s -> inv_cancel s ->
    (forall i q p, thr s i = TReq q p -> carries p = false) ->
    inv_done s -> exec1 E e s = Some s' -> inv_done s'.
  Proof.
    intros e s s' IJ (I1 & I2) NC ID H i q K. pose proof IJ as (J1 & J2 & J3 & J4).
    assert (D : thr s i = TReq q (QDone RCancelled) \/ exists snap j, thr s i = TReq q (QDel snap j None)).
    { clear - H K NC. steps H; cbn [thr njob srv with_lock with_em with_new_cell with_em_ref with_obl with_cfg with_res
          with_jobs with_new_job with_srv with_thr] in *;
          try (left; exact K);
          lazymatch goal with Q : thr s ?k0 = _ |- _ =>
            pose proof (NC _ _ _ Q) as NQ || idtac;
            revert K; split_thr i k0; intros K; [|left; exact K]; try discriminate K; try (destruct conc; discriminate K) end;
          try (injection K as <-; right; eexists; eexists; eassumption).
      injection K as -> ->. discriminate NQ. }
    destruct D as [D|(snap & j & D)].
    - destruct (ID i q D) as (k & tok & TK & O). exists k, tok. split; [exact (cancel_thr _ _ _ _ _ H TK)|exact O].
    - assert (JB : j < njob s /\ j_owner (srv s j) = i) by (apply J2; rewrite D; reflexivity).
      destruct JB as (JB & OW). pose proof (J4 _ _ _ _ _ D) as ST. cbn in ST.
      destruct (I2 j JB ST) as (k & tok & TK & O). exists k, tok. split; [exact (cancel_thr _ _ _ _ _ H TK)|].
      rewrite OW, D in O. exact O.
  Qed.

  Lemma inv_done_reachable : forall s, reachable E s -> inv_done s.
  Proof.
    intros s (s0 & evs & I & X). pose proof (inv_jobs_initial _ I) as IJ. pose proof (inv_cancel_initial _ I) as IC.
    assert (ID : inv_done s0).
    { intros i q K. destruct I as (_ & _ & _ & _ & _ & T). specialize (T i). rewrite K in T. discriminate. }
    assert (NC : forall i q p, thr s0 i = TReq q p -> carries p = false).
    { intros i q p K. destruct I as (_ & _ & _ & _ & _ & T). specialize (T i). rewrite K in T. subst p. reflexivity. }
    clear I. revert s0 IJ IC ID NC X. induction evs as [|e evs IH]; intros s0 IJ IC ID NC X; cbn [exec] in X.
    - injection X as <-. exact ID.
    - destruct (exec1 E e s0) as [s1|] eqn:X1; [|discriminate].
      apply (IH s1); [exact (inv_jobs_step _ _ _ IJ X1)|exact (inv_cancel_step _ _ _ IJ IC X1)
                     |exact (inv_done_step _ _ _ IJ IC NC ID X1)|exact (no_carry_step _ _ _ NC X1)|exact X].
  Qed.

  (** ** Progress *)
  Lemma holder_steps : forall i s, holds (thr s i) = true -> exists s', exec1 E (Run i) s = Some s'.
  Proof.
    intros i s H. cbn [exec1]. unfold step. destruct (thr s i) as [q p|tok p|us p]; cbn in H; try discriminate.
    - destruct p; cbn in H; try discriminate; cbn [step_request]; try (eexists; reflexivity).
      + destruct (e_tr E (options conc s) q) as [[rg o] ob]. eexists; reflexivity.
      + destruct todo as [|g todo].
        * destruct o; eexists; reflexivity.
        * destruct (to_position _ _ _ _ _ _ _) as [[pp mm]|]; eexists; reflexivity.
      + destruct es as [|e es]; [eexists; reflexivity|].
        destruct (convert_error _ e); eexists; reflexivity.
    - destruct p as [|todo reload| |]; try discriminate; cbn [step_reconf]; try (eexists; reflexivity).
      destruct todo as [|u todo]; [eexists; reflexivity|]. destruct (apply_update u (cfg s)). eexists; reflexivity.
  Qed.

  Lemma progress : forall s i, inv s -> inv_jobs s -> ~ finished (thr s i) -> exists e s', exec1 E e s = Some s'.
  Proof.
    intros s i (IL & _) (_ & J2 & _) NF. destruct (lock s) as [k|] eqn:L.
    - apply IL in L. destruct (holder_steps k s L) as (s' & X). exists (Run k), s'. exact X.
    - assert (NH : holds (thr s i) = false).
      { destruct (holds (thr s i)) eqn:H; [|reflexivity]. apply IL in H. congruence. }
      destruct (thr s i) as [q p|tok p|us p] eqn:T.
      + destruct p; cbn in NH; try discriminate NH;
          try (exists (Run i); unfold exec1, step; rewrite T; cbn [step_request]; try rewrite L; eexists; reflexivity).
        * destruct (j_status (srv s job)) as [|w|] eqn:S.
          -- exists (Finish job). cbn [exec1]. unfold finish_job.
             destruct (J2 i job) as (B & _); [rewrite T; reflexivity|]. apply Nat.ltb_lt in B. rewrite B, S.
             eexists; reflexivity.
          -- exists (Run i). unfold exec1, step. rewrite T. cbn [step_request]. rewrite S. eexists; reflexivity.
          -- exists (Run i). unfold exec1, step. rewrite T. cbn [step_request]. rewrite S. eexists; reflexivity.
        * exfalso. apply NF. exact Logic.I.
      + destruct p as [|j|].
        * exists (Run i). unfold exec1, step. rewrite T. cbn [step_cancel]. destruct (c_server (cfg s)); [|eexists; reflexivity].
          destruct tok as [t|]; [|eexists; reflexivity]. destruct (jobs s t); eexists; reflexivity.
        * exists (Run i). unfold exec1, step. rewrite T. cbn [step_cancel]. eexists; reflexivity.
        * exfalso. apply NF. exact Logic.I.
      + destruct p as [|todo reload| |]; try discriminate NH.
        * exists (Run i). unfold exec1, step. rewrite T. cbn [step_reconf]. rewrite L. eexists; reflexivity.
        * exfalso. apply NF. exact Logic.I.
  Qed.

  (** ** After submission *)
  Lemma late_exec : forall m v q i evs s s' p r, inv s -> thr s i = TReq q p ->
    late m v (fun _ => True) s p -> exec E evs s = Some s' -> thr s' i = TReq q (QDone r) ->
    r = RCancelled \/ exists sf, r = answer E sf m v.
  Proof.
    intros m v q i. induction evs as [|e evs IH]; intros s s' p r I T L X D; cbn [exec] in X.
    - injection X as <-. rewrite T in D. injection D as ->. cbn [late] in L.
      destruct L as [L|(sf & _ & L)]; [left; exact L|right; exists sf; exact L].
    - destruct (exec1 E e s) as [s1|] eqn:X1; [|discriminate].
      destruct (exec1_thr _ _ _ _ _ _ X1 T) as (p' & T' & NR & OR).
      assert (L' : late m v (fun _ => True) s1 p').
      { assert (DE : e = Run i \/ e <> Run i).
        { destruct e as [k|j]; [|right; discriminate]. destruct (Nat.eq_dec k i) as [->|]; [left; reflexivity|right; congruence]. }
        destruct DE as [->|NE].
        - destruct (OR eq_refl) as (s2 & SR & ->).
          pose proof (late_own m v (fun _ => True) s i q p s2 p' L Logic.I SR) as L2.
          destruct p'; exact L2.
        - rewrite (NR NE) in *. exact (late_frame _ _ _ _ _ _ _ _ _ I T X1 NE L). }
      exact (IH s1 s' p' r (inv_step _ _ _ I X1) T' L' X D).
  Qed.

  Lemma submitted : forall s1 evs s2 i q snap j r, reachable E s1 ->
    thr s1 i = TReq q (QAwait snap j) ->
    exec E evs s1 = Some s2 -> thr s2 i = TReq q (QDone r) ->
    r = RCancelled \/ exists sf, r = answer E sf (cells s1 snap)
      (e_verdict E (j_prog (srv s1 j)) (j_carbon (srv s1 j)) (j_args (srv s1 j))).
  Proof.
    intros s1 evs s2 i q snap j r RE T X D. destruct (reachable_inv _ RE) as (I & J1 & J2 & _).
    destruct (J2 i j) as (JB & _); [rewrite T; reflexivity|].
    eapply late_exec; [exact I|exact T| |exact X|exact D]. cbn [late].
    split; [reflexivity|]. split; [exact JB|]. split; [reflexivity|]. intros w W. exact (J1 j w JB W).
  Qed.

  (** ** Cancellation is effective *)
  Definition doomed (s : state) (i j : nat) : Prop :=
    j < njob s /\ j_status (srv s j) = Stopped /\
    match thr s i with
    | TReq _ (QAwait _ j') => j' = j
    | TReq _ (QDel _ j' None) => j' = j
    | TReq _ (QDone RCancelled) => True
    | _ => False
    end.
  Lemma doomed_step : forall e s s' i j, doomed s i j -> exec1 E e s = Some s' -> doomed s' i j.
  Proof.
    intros e s s' i j (JB & ST & T) H. pose proof (jobs_step _ _ _ H) as (NJ & JS).
    split; [lia|]. split; [rewrite (status_final _ _ (JS j JB)); congruence|].
    destruct (thr s i) as [q p|tok p|us p] eqn:TH; try contradiction.
    destruct (exec1_thr _ _ _ _ _ _ H TH) as (p' & T' & NR & OR). rewrite T'.
    assert (DE : e = Run i \/ e <> Run i).
    { destruct e as [k|jj]; [|right; discriminate]. destruct (Nat.eq_dec k i) as [->|]; [left; reflexivity|right; congruence]. }
    destruct DE as [->|NE]; [|rewrite (NR NE); exact T].
    destruct (OR eq_refl) as (s2 & SR & _).
    destruct p; try contradiction; cbn [step_request] in SR.
    - subst job. rewrite ST in SR. injection SR as <- <-. reflexivity.
    - destruct r; [contradiction|]. injection SR as <- <-. exact Logic.I.
    - discriminate.
  Qed.
  Lemma doomed_exec : forall evs s s' i j q r, doomed s i j -> exec E evs s = Some s' ->
    thr s' i = TReq q (QDone r) -> r = RCancelled.
  Proof.
    induction evs as [|e evs IH]; intros s s' i j q r D X T; cbn [exec] in X.
    - injection X as <-. destruct D as (_ & _ & D). rewrite T in D. destruct r; try contradiction. reflexivity.
    - destruct (exec1 E e s) as [s1|] eqn:X1; [|discriminate].
      exact (IH s1 s' i j q r (doomed_step _ _ _ _ _ D X1) X T).
  Qed.

  Lemma cancel_effective : forall s k t j, reachable E s ->
    thr s k = TCancel (Some t) CStart -> c_server (cfg s) = true ->
    jobs s t = Some j -> j_status (srv s j) = Running ->
    exists i q, thr s i <> TCancel (Some t) CStart /\ token_of (thr s i) = Some t /\ entry_of (thr s i) j /\
      thr s i = TReq q (match thr s i with TReq _ p => p | _ => QStart end) /\
      forall evs s2 r, exec E (Run k :: Run k :: evs) s = Some s2 -> thr s2 i = TReq q (QDone r) -> r = RCancelled.
  Proof.
    intros s k t j RE TK CS JT ST. destruct (reachable_inv _ RE) as (I & J1 & J2 & J3 & J4).
    destruct (J3 t j JT) as (i & EN & TO). destruct (J2 i j (entry_job _ _ EN)) as (JB & OW).
    destruct (thr s i) as [q p|tok p|us p] eqn:TI; try contradiction.
    exists i, q. rewrite TI. split; [discriminate|]. split; [exact TO|]. split; [exact EN|]. split; [reflexivity|].
    intros evs s2 r X D. cbn [exec exec1] in X. unfold step at 1 in X. rewrite TK in X. cbn [step_cancel] in X.
    rewrite CS, JT in X. unfold step in X. cbn [thr with_thr] in X. rewrite upd_eq in X. cbn [step_cancel] in X.
    cbn [srv with_thr] in X. rewrite ST in X.
    eapply doomed_exec; [|exact X|exact D]. split; [cbn; exact JB|]. split; [cbn; rewrite upd_eq; reflexivity|].
    cbn. assert (i <> k) by congruence. rewrite !upd_neq by assumption. rewrite TI.
    cbn in EN. destruct p; try contradiction; [exact EN|].
    pose proof (J4 _ _ _ _ _ TI) as S4. subst job. rewrite ST in S4. destruct r0; discriminate.
  Qed.

  (** ** Theorems *)
  Lemma c25_isolation : forall c q i evs s s' r, initial s -> thr s i = TReq q QStart ->
    (forall a b s1, evs = a ++ b -> exec E a s = Some s1 -> active s1 i -> cfg s1 = c) ->
    exec E evs s = Some s' -> thr s' i = TReq q (QDone r) ->
    r = alone E c q \/ r = RCancelled /\ exists k tok, thr s' k = TCancel tok CDone /\ (tok = None \/ tok = q_token q).
  Proof.
    intros c q i evs s s' r I T HC X D.
    destruct (isolation c q i evs s s' QStart r (inv_initial _ I) T Logic.I) as [->| ->]; auto.
    - unfold active. rewrite T. contradiction.
    - right. split; [reflexivity|]. apply (inv_done_reachable s') with (i := i); [|exact D].
      exists s, evs. split; assumption.
  Qed.

  Definition is_reconf (t : thread) : bool := match t with TReconf _ _ => true | _ => false end.
  Definition is_cancel (t : thread) : bool := match t with TCancel _ _ => true | _ => false end.
  Lemma kind_step : forall e s s' i, exec1 E e s = Some s' ->
    is_reconf (thr s' i) = is_reconf (thr s i) /\ is_cancel (thr s' i) = is_cancel (thr s i).
  Proof.
    intros e s s' i H. steps H; fields; try (split; reflexivity);
    lazymatch goal with Q : thr s ?k = _ |- _ => split_thr i k; [rewrite Q|]; split; reflexivity end.
  Qed.
  Lemma cfg_step : forall e s s', exec1 E e s = Some s' -> (forall i, is_reconf (thr s i) = false) -> cfg s' = cfg s.
  Proof.
    intros e s s' H N. steps H; fields; try reflexivity;
    lazymatch goal with Q : thr s ?k = TReconf _ _ |- _ => specialize (N k); rewrite Q in N; discriminate N end.
  Qed.
  Lemma kind_exec : forall evs s s', exec E evs s = Some s' ->
    (forall i, is_reconf (thr s' i) = is_reconf (thr s i) /\ is_cancel (thr s' i) = is_cancel (thr s i)) /\
    ((forall i, is_reconf (thr s i) = false) -> cfg s' = cfg s).
  Proof.
    induction evs as [|e evs IH]; intros s s' X; cbn [exec] in X.
    - injection X as <-. split; [split; reflexivity|reflexivity].
    - destruct (exec1 E e s) as [s1|] eqn:X1; [|discriminate]. destruct (IH _ _ X) as (A & B). split.
      + intros i. destruct (A i) as (-> & ->). exact (kind_step _ _ _ i X1).
      + intros N. rewrite B; [exact (cfg_step _ _ _ X1 N)|]. intros i. destruct (kind_step _ _ _ i X1) as (-> & _). apply N.
  Qed.

  Lemma c25_requests_only : forall s evs s' i q r, initial s ->
    (forall k, exists q', thr s k = TReq q' QStart) -> thr s i = TReq q QStart ->
    exec E evs s = Some s' -> thr s' i = TReq q (QDone r) -> r = alone E (cfg s) q.
  Proof.
    intros s evs s' i q r I A T X D.
    assert (N : forall k, is_reconf (thr s k) = false /\ is_cancel (thr s k) = false).
    { intros k. destruct (A k) as (q' & ->). split; reflexivity. }
    destruct (c25_isolation (cfg s) q i evs s s' r I T) as [->|(-> & k & tok & TK & _)]; auto.
    - intros a b s1 _ X1 _. apply (kind_exec _ _ _ X1). intros k. apply N.
    - exfalso. destruct (kind_exec _ _ _ X) as (K & _). destruct (K k) as (_ & KC). rewrite TK in KC.
      destruct (N k) as (_ & NC). rewrite NC in KC. discriminate.
  Qed.

  Lemma c25_submitted_partial : forall s1 evs s2 i q snap j r, reachable E s1 ->
    thr s1 i = TReq q (QAwait snap j) -> (forall e, e_ce E true e = e_ce E false e) ->
    exec E evs s1 = Some s2 -> thr s2 i = TReq q (QDone r) ->
    r = RCancelled \/ r = answer E false (cells s1 snap)
      (e_verdict E (j_prog (srv s1 j)) (j_carbon (srv s1 j)) (j_args (srv s1 j))).
  Proof.
    intros s1 evs s2 i q snap j r RE T CE X D.
    destruct (submitted _ _ _ _ _ _ _ _ RE T X D) as [->|(sf & ->)]; [left; reflexivity|right].
    destruct (e_verdict E _ _ _); try reflexivity. cbn [answer]. unfold reports.
    destruct (convert _ es); [|reflexivity].
    replace (map (e_ce E sf) es) with (map (e_ce E false) es); [reflexivity|].
    apply map_ext. intros e. destruct sf; [symmetry; apply CE|reflexivity].
  Qed.

  Lemma c25_no_leak : forall s, reachable E s ->
    (forall t j, jobs s t = Some j -> exists i q p, thr s i = TReq q p /\ q_token q = Some t /\
       j_owner (srv s j) = i /\ active s i) /\
    ((forall i, finished (thr s i)) -> forall t, jobs s t = None).
  Proof.
    intros s RE. destruct (reachable_inv _ RE) as (_ & J1 & J2 & J3 & J4).
    assert (A : forall t j, jobs s t = Some j -> exists i q p, thr s i = TReq q p /\ q_token q = Some t /\
       j_owner (srv s j) = i /\ active s i).
    { intros t j K. destruct (J3 t j K) as (i & EN & TK). destruct (J2 i j (entry_job _ _ EN)) as (_ & OW).
      unfold active. destruct (thr s i) as [q p|tok p|us p] eqn:T; try contradiction.
      exists i, q, p. rewrite T. split; [reflexivity|]. split; [exact TK|]. split; [exact OW|].
      cbn in EN. destruct p; try contradiction; exact Logic.I. }
    split; [exact A|]. intros F t. destruct (jobs s t) as [j|] eqn:K; [|reflexivity]. exfalso.
    destruct (A t j K) as (i & q & p & T & _ & _ & AC). specialize (F i). unfold active in AC. rewrite T in *.
    destruct p; contradiction.
  Qed.

  Lemma c25_cancel_reason : forall s i q, reachable E s -> thr s i = TReq q (QDone RCancelled) ->
    exists k tok, thr s k = TCancel tok CDone /\ (tok = None \/ tok = q_token q).
  Proof. intros s i q RE. exact (inv_done_reachable s RE i q). Qed.

  Lemma c25_cancel_target : forall s k t j, reachable E s -> thr s k = TCancel (Some t) (CFound j) ->
    exists q p, thr s (j_owner (srv s j)) = TReq q p /\ q_token q = Some t.
  Proof.
    intros s k t j RE T. destruct (inv_cancel_reachable _ RE) as (I1 & _). destruct (I1 _ _ _ T) as (_ & TK).
    unfold token_of in TK. destruct (thr s (j_owner (srv s j))) as [q p|tok p|us p]; try discriminate.
    exists q, p. split; [reflexivity|exact TK].
  Qed.

  Lemma c25_cancel_effective : forall s k t j, reachable E s ->
    thr s k = TCancel (Some t) CStart -> c_server (cfg s) = true ->
    jobs s t = Some j -> j_status (srv s j) = Running ->
    exists i q, token_of (thr s i) = Some t /\ (exists p, thr s i = TReq q p) /\
      forall evs s2 r, exec E (Run k :: Run k :: evs) s = Some s2 -> thr s2 i = TReq q (QDone r) -> r = RCancelled.
  Proof.
    intros s k t j RE TK CS JT ST.
    destruct (cancel_effective s k t j RE TK CS JT ST) as (i & q & _ & TO & _ & TI & F).
    exists i, q. split; [exact TO|]. split; [eexists; exact TI|exact F].
  Qed.

  Lemma c25_progress : forall s i, reachable E s -> ~ finished (thr s i) -> exists e s', exec1 E e s = Some s'.
  Proof. intros s i RE NF. destruct (reachable_inv _ RE) as (I & J). exact (progress s i I J NF). Qed.

  Lemma c25_lock : forall s i j, reachable E s ->
    holds (thr s i) = true -> holds (thr s j) = true -> i = j.
  Proof.
    intros s i j RE A B. destruct (reachable_inv _ RE) as ((IL & _) & _). apply IL in A, B. congruence.
  Qed.
End Inv.
