(** Proofs about the language server. *)
From Coq Require Import List Arith ZArith NArith Bool Lia.
From Verif Require Import LspModel LspSpec.
Import ListNotations.

Section Server.
  Context (E : env).

  Lemma exec_app a : forall b s, exec E (a ++ b) s = match exec E a s with Some s1 => exec E b s1 | None => None end.
  Proof. induction a as [|e a IH]; intros b s; cbn; [reflexivity|]. destruct (step E e s); auto. Qed.
  Lemma exec_snoc a e s s' : exec E (a ++ [e]) s = Some s' -> exists s1, exec E a s = Some s1 /\ step E e s1 = Some s'.
  Proof.
    rewrite exec_app. destruct (exec E a s) as [s1|]; [|discriminate]. cbn. destruct (step E e s1) as [s2|] eqn:X; [|discriminate].
    intros [= <-]. eauto.
  Qed.
  Lemma upd_eq {A} (f : nat -> A) i a : upd f i a i = a.
  Proof. unfold upd. now rewrite Nat.eqb_refl. Qed.
  Lemma upd_neq {A} (f : nat -> A) i a k : k <> i -> upd f i a k = f k.
  Proof. unfold upd. intros H. destruct (Nat.eqb_spec k i); congruence. Qed.

  (** The effect of a step, case by case. *)
  Inductive move (s : state) : state -> Prop :=
  | m_write d c : move s {| n := n s; runs := runs s; table := table s; file := upd (file s) d c; last := last s; published := published s |}
  | m_request d x : move s (add_run s d x)
  | m_request_stop d x i : table s d = Some i -> r_job (runs s i) = JPending ->
      move s (add_run (set_run s i (with_job (runs s i) JStopped)) d x)
  | m_take i : i < n s -> r_phase (runs s i) = Queued -> move s (set_run s i (with_phase (runs s i) Working))
  | m_reject i ds : i < n s -> r_phase (runs s i) = Working ->
      translate E (r_doc (runs s i)) (file s (r_doc (runs s i))) (r_sel (runs s i)) = Some ds ->
      move s (set_run s i (with_phase (runs s i) (Returned (Some ds))))
  | m_submit i : i < n s -> r_phase (runs s i) = Working ->
      translate E (r_doc (runs s i)) (file s (r_doc (runs s i))) (r_sel (runs s i)) = None ->
      move s (set_run s i (with_phase (runs s i) (Submitted (file s (r_doc (runs s i))))))
  | m_register i c : i < n s -> r_phase (runs s i) = Submitted c ->
      move s (set_table (set_run s i (with_phase (runs s i) (Registered c))) (r_doc (runs s i)) (Some i))
  | m_finish i c : i < n s -> (r_phase (runs s i) = Submitted c \/ r_phase (runs s i) = Registered c) ->
      r_job (runs s i) = JPending -> move s (set_run s i (with_job (runs s i) JFinished))
  | m_await i c : i < n s -> r_phase (runs s i) = Registered c -> r_job (runs s i) = JFinished ->
      move s (set_run s i (with_phase (runs s i) (Awaited (Some (verdict E (r_doc (runs s i)) c (r_sel (runs s i)))))))
  | m_await_stopped i c : i < n s -> r_phase (runs s i) = Registered c -> r_job (runs s i) = JStopped ->
      move s (set_run s i (with_phase (runs s i) (Awaited None)))
  | m_dereg i o : i < n s -> r_phase (runs s i) = Awaited o -> table s (r_doc (runs s i)) <> Some i ->
      move s (set_run s i (with_phase (runs s i) (Returned o)))
  | m_dereg_own i o : i < n s -> r_phase (runs s i) = Awaited o -> table s (r_doc (runs s i)) = Some i ->
      move s (set_table (set_run s i (with_phase (runs s i) (Returned o))) (r_doc (runs s i)) None)
  | m_silent i : i < n s -> r_phase (runs s i) = Returned None -> move s (set_run s i (with_phase (runs s i) Done))
  | m_publish i ds : i < n s -> r_phase (runs s i) = Returned (Some ds) ->
      move s {| n := n s; runs := upd (runs s) i (with_phase (runs s i) Done); table := table s; file := file s;
                last := upd (last s) (r_doc (runs s i)) (Some ds);
                published := upd (published s) (r_doc (runs s i)) (Some (map (to_lsp (r_doc (runs s i))) ds)) |}.
  Lemma step_move e s s' : step E e s = Some s' -> move s s'.
  Proof.
    destruct e as [d c|d x|i|i|i|i|i|i|i]; cbn [step]; intros H.
    - injection H as <-. constructor.
    - injection H as <-. unfold cancel. destruct (table s d) as [i|] eqn:T; [|constructor].
      unfold stop. destruct (r_job (runs s i)) eqn:J; [now apply m_request_stop|constructor|constructor].
    - destruct (i <? n s) eqn:L; [|discriminate]. apply Nat.ltb_lt in L. destruct (first_queued s i) eqn:Q; [|discriminate].
      destruct (workers s <? 4); [|discriminate]. injection H as <-. constructor; auto.
      unfold first_queued in Q. apply andb_prop in Q as [Q _]. destruct (r_phase (runs s i)); try discriminate. reflexivity.
    - destruct (i <? n s) eqn:L; [|discriminate]. apply Nat.ltb_lt in L. destruct (r_phase (runs s i)) eqn:P; try discriminate.
      destruct (translate _ _ _ _) eqn:T; injection H as <-; now constructor.
    - destruct (i <? n s) eqn:L; [|discriminate]. apply Nat.ltb_lt in L. destruct (r_phase (runs s i)) eqn:P; try discriminate.
      injection H as <-. now constructor.
    - destruct (i <? n s) eqn:L; [|discriminate]. apply Nat.ltb_lt in L. destruct (r_phase (runs s i)) eqn:P; try discriminate;
        destruct (r_job (runs s i)) eqn:J; try discriminate; injection H as <-; econstructor; eauto.
    - destruct (i <? n s) eqn:L; [|discriminate]. apply Nat.ltb_lt in L. destruct (r_phase (runs s i)) eqn:P; try discriminate;
        destruct (r_job (runs s i)) eqn:J; try discriminate; injection H as <-; econstructor; eauto.
    - destruct (i <? n s) eqn:L; [|discriminate]. apply Nat.ltb_lt in L. destruct (r_phase (runs s i)) eqn:P; try discriminate.
      injection H as <-. destruct (table s (r_doc (runs s i))) as [k|] eqn:T.
      + destruct (Nat.eqb_spec k i) as [->|N]; [now constructor|]. constructor; auto. congruence.
      + constructor; auto. congruence.
    - destruct (i <? n s) eqn:L; [|discriminate]. apply Nat.ltb_lt in L. destruct (r_phase (runs s i)) as [| | | | |o|] eqn:P; try discriminate.
      injection H as <-. destruct o; now constructor.
  Qed.

  (** Document and selection of a run never change. *)
  Lemma move_const s s' k : move s s' -> k < n s ->
    r_doc (runs s' k) = r_doc (runs s k) /\ r_sel (runs s' k) = r_sel (runs s k).
  Proof.
    intros M L. destruct M; cbn; unfold upd;
      repeat match goal with |- context [?a =? ?b] => destruct (Nat.eqb_spec a b); subst; cbn; try lia end; auto.
  Qed.
  Lemma move_n s s' : move s s' -> n s <= n s'.
  Proof. intros M. destruct M; cbn; lia. Qed.

  Definition phase_ok (r : run) : Prop :=
    match r_phase r with
    | Queued | Working | Submitted _ => r_job r <> JStopped
    | Registered _ => True
    | Awaited None | Returned None => r_job r = JStopped
    | Awaited (Some _) => r_job r = JFinished
    | Returned (Some _) => r_job r <> JStopped
    | Done => True
    end.
  Definition inv (s : state) : Prop :=
    (forall d i, table s d = Some i -> i < n s /\ r_doc (runs s i) = d /\
       ((exists c, r_phase (runs s i) = Registered c) \/ (exists o, r_phase (runs s i) = Awaited o))) /\
    (forall i, i < n s -> phase_ok (runs s i)) /\
    (forall i, i < n s -> r_job (runs s i) = JStopped -> exists k, i < k < n s /\ r_doc (runs s k) = r_doc (runs s i)).

  Lemma stopped_move s s' k : inv s -> move s s' -> k < n s -> r_job (runs s' k) = JStopped ->
    r_job (runs s k) = JStopped \/ (n s' = S (n s) /\ r_doc (runs s' (n s)) = r_doc (runs s k)).
  Proof.
    intros (I1 & _) M L J. destruct M; cbn [n runs set_run set_table add_run] in *; auto;
      try (destruct (Nat.eq_dec k i) as [->|N]; [rewrite upd_eq in J; cbn in J; auto; try discriminate|rewrite upd_neq in J by auto; auto]; fail).
    - rewrite upd_neq in J by lia. auto.
    - rewrite upd_neq in J by lia. destruct (Nat.eq_dec k i) as [->|N]; [|rewrite upd_neq in J by auto; auto].
      right. rewrite upd_eq. cbn. destruct (I1 _ _ H) as (_ & D & _). auto.
  Qed.
  Ltac cases_upd := repeat match goal with
    | |- context [upd _ ?a _ ?b] => let H := fresh "U" in destruct (Nat.eq_dec b a) as [H|H]; [subst; rewrite ?upd_eq|rewrite ?(upd_neq _ a) by exact H]
    | K : context [upd _ ?a _ ?b] |- _ => let H := fresh "U" in destruct (Nat.eq_dec b a) as [H|H]; [subst; rewrite ?upd_eq in *|rewrite ?(upd_neq _ a) in * by exact H]
    end.
  Lemma inv_move s s' : inv s -> move s s' -> inv s'.
  Proof.
    intros (I1 & I2 & I3) M. split; [|split].
    - intros d i T. destruct M; cbn [table n runs set_run set_table add_run] in *; try (destruct (I1 _ _ T) as (A & B & C));
        try (cases_upd; cbn [r_doc r_phase with_phase with_job]; repeat split; auto; try lia; destruct C as [[c' C]|[o' C]]; try congruence; eauto; fail).
      + destruct (Nat.eq_dec d (r_doc (runs s i0))) as [->|N].
        * rewrite upd_eq in T. injection T as <-. rewrite upd_eq. cbn. repeat split; eauto.
        * rewrite upd_neq in T by auto. apply I1 in T as (A & B & C). rewrite upd_neq by congruence. auto.
      + destruct (Nat.eq_dec d (r_doc (runs s i0))) as [->|N].
        * rewrite upd_eq in T. discriminate.
        * rewrite upd_neq in T by auto. apply I1 in T as (A & B & C). rewrite upd_neq by congruence. auto.
    - intros k L. pose proof (I2 k) as P.
      destruct M; cbn [n runs set_run set_table add_run] in *; auto; cases_upd; auto;
        try (specialize (P ltac:(lia))); auto; unfold phase_ok in *; cbn [r_phase r_job with_phase with_job] in *; try discriminate; auto;
        repeat match goal with H : r_phase _ = _ |- _ => rewrite H in * end; auto; try congruence;
        try (destruct H0 as [H0|H0]; rewrite H0; auto; discriminate).
      + destruct (I1 _ _ H) as (A & _ & [[c C]|[o C]]); rewrite C in *; auto. destruct o; congruence.
      + destruct o; congruence.
      + destruct o; congruence.
    - intros k L J. destruct (Nat.lt_ge_cases k (n s)) as [LT|GE].
      + destruct (move_const s s' k M LT) as [D _]. pose proof (move_n _ _ M) as N.
        destruct (stopped_move s s' k (conj I1 (conj I2 I3)) M LT J) as [O|(N2 & D2)].
        * destruct (I3 k LT O) as (m & B & DM). exists m. split; [lia|]. destruct (move_const s s' m M ltac:(lia)) as [D3 _]. congruence.
        * exists (n s). split; [lia|]. congruence.
      + exfalso. destruct M; cbn [n runs set_run set_table add_run] in *; try lia; cases_upd; try lia; discriminate.
  Qed.
  Lemma inv_init f : inv (init f).
  Proof. repeat split; cbn; intros; try discriminate; lia. Qed.
  Lemma inv_exec es : forall s s', inv s -> exec E es s = Some s' -> inv s'.
  Proof.
    induction es as [|e es IH]; cbn; intros s s' I X; [now injection X as <-|].
    destruct (step E e s) as [s1|] eqn:S; [|discriminate]. eapply IH; [|exact X]. eapply inv_move; eauto. eapply step_move; eauto.
  Qed.
  Lemma cancelled_superseded f es s i : exec E es (init f) = Some s -> i < n s -> was_cancelled (runs s i) ->
    exists k, i < k < n s /\ r_doc (runs s k) = r_doc (runs s i).
  Proof.
    intros X L C. destruct (inv_exec _ _ _ (inv_init f) X) as (_ & I2 & I3). apply I3; auto.
    specialize (I2 i L). unfold phase_ok in I2. destruct C as [C|[C|C]]; auto; rewrite C in I2; auto.
  Qed.

  (** Where shown diagnostics come from. *)
  Definition origin (f : doc -> content) (es : list event) (i : nat) (d : doc) (x : sel) (c : content) : Prop :=
    exists e1 e2 s1, es = e1 ++ e2 /\ exec E e1 (init f) = Some s1 /\ i < n s1 /\ r_doc (runs s1 i) = d /\
      r_sel (runs s1 i) = x /\ file s1 d = c.
  Lemma origin_snoc f es i d x c e : origin f es i d x c -> origin f (es ++ [e]) i d x c.
  Proof. intros (e1 & e2 & s1 & -> & R). exists e1, (e2 ++ [e]), s1. rewrite app_assoc. auto. Qed.
  Definition known f es (i : nat) (r : run) : Prop :=
    match r_phase r with
    | Submitted c | Registered c => translate E (r_doc r) c (r_sel r) = None /\ origin f es i (r_doc r) (r_sel r) c
    | Awaited (Some ds) | Returned (Some ds) =>
        exists c, ds = outcome E (r_doc r) c (r_sel r) /\ origin f es i (r_doc r) (r_sel r) c
    | _ => True
    end.
  Definition known_all f es (s : state) : Prop :=
    (forall i, i < n s -> known f es i (runs s i)) /\
    (forall d ls, last s d = Some ls -> exists i x c, ls = outcome E d c x /\ origin f es i d x c) /\
    (forall d, published s d = option_map (map (to_lsp d)) (last s d)).
  Lemma known_snoc f es i r e : known f es i r -> known f (es ++ [e]) i r.
  Proof.
    unfold known. destruct (r_phase r) as [| |c|c|[ds|]|[ds|]|]; auto.
    - intros [A B]. split; auto. now apply origin_snoc.
    - intros [A B]. split; auto. now apply origin_snoc.
    - intros (c & A & B). exists c. split; auto. now apply origin_snoc.
    - intros (c & A & B). exists c. split; auto. now apply origin_snoc.
  Qed.
  Lemma known_reachable f es : forall s, exec E es (init f) = Some s -> known_all f es s.
  Proof.
    induction es as [|e es IH] using rev_ind; intros s' X.
    - cbn in X. injection X as <-. split; [|split]; cbn; intros; try discriminate; try lia. reflexivity.
    - destruct (exec_snoc _ _ _ _ X) as (s & X1 & S). destruct (IH s X1) as (K1 & K2 & K3). clear IH X.
      assert (forall i, i < n s -> origin f es i (r_doc (runs s i)) (r_sel (runs s i)) (file s (r_doc (runs s i)))) as O.
      { intros i L. exists es, [], s. rewrite app_nil_r. auto 10. }
      pose proof (step_move _ _ _ S) as M. clear S. split; [|split].
      + intros k L. pose proof (fun L => known_snoc f es k (runs s k) e (K1 k L)) as P.
        destruct M; cbn [n runs set_run set_table add_run] in *; auto; cases_upd; auto;
          try (specialize (P ltac:(lia))); auto; unfold known in *; cbn [r_phase r_doc r_sel with_phase with_job] in *; auto;
          try (match goal with H : r_phase _ = _ |- _ => rewrite H in * end; auto; fail).
        * exists (file s (r_doc (runs s i))). split; [unfold outcome; now rewrite H1|]. apply origin_snoc; auto.
        * split; auto. apply origin_snoc; auto.
        * rewrite H0 in P. destruct P as [P1 P2]. exists c. split; auto. unfold outcome. now rewrite P1.
      + intros d ls PB.
        assert (last s d = Some ls -> exists i x c, ls = outcome E d c x /\ origin f (es ++ [e]) i d x c) as OLD.
        { intros H. destruct (K2 d ls H) as (i & x & c & A & B). exists i, x, c. split; auto. now apply origin_snoc. }
        destruct M; cbn [last set_run set_table add_run] in *; auto.
        destruct (Nat.eq_dec d (r_doc (runs s i))) as [->|N]; [|rewrite upd_neq in PB by auto; auto].
        rewrite upd_eq in PB. injection PB as <-. pose proof (K1 i H) as P. unfold known in P. rewrite H0 in P.
        destruct P as (c & -> & P). exists i, (r_sel (runs s i)), c. split; auto. now apply origin_snoc.
      + intros d. destruct M; cbn [published last set_run set_table add_run]; auto.
        destruct (Nat.eq_dec d (r_doc (runs s i))) as [->|N]; [rewrite !upd_eq; reflexivity|rewrite !upd_neq by auto; auto].
  Qed.
  Lemma shown_sound f es s d ls : exec E es (init f) = Some s -> published s d = Some ls ->
    exists i x e1 e2 s1, es = e1 ++ e2 /\ exec E e1 (init f) = Some s1 /\ i < n s1 /\ r_doc (runs s1 i) = d /\
      r_sel (runs s1 i) = x /\ ls = map (to_lsp d) (outcome E d (file s1 d) x).
  Proof.
    intros X P. destruct (known_reachable f es s X) as (_ & K & K2). rewrite K2 in P. destruct (last s d) as [l|] eqn:L; [|discriminate].
    injection P as <-. destruct (K d l L) as (i & x & c & A & (e1 & e2 & s1 & B)).
    exists i, x, e1, e2, s1. destruct B as (B1 & B2 & B3 & B4 & B5 & <-). rewrite A. auto 10.
  Qed.
  Lemma hover_shown f es s d : exec E es (init f) = Some s ->
    match published s d with
    | None => forall line, hover s d line = None
    | Some sh => exists i e1 e2 s1, es = e1 ++ e2 /\ exec E e1 (init f) = Some s1 /\ i < n s1 /\ r_doc (runs s1 i) = d /\
        let ls := outcome E d (file s1 d) (r_sel (runs s1 i)) in
        sh = map (to_lsp d) ls /\
        forall line,
          (forall m, hover s d line = Some m -> exists y, In y ls /\ d_info y = Some m /\ (d_start_line y - 1 <= line <= d_end_line y - 1)%Z) /\
          (hover s d line = None -> forall y, In y ls -> (d_start_line y - 1 <= line <= d_end_line y - 1)%Z -> d_info y = None)
    end.
  Proof.
    intros X. destruct (known_reachable f es s X) as (_ & K & K2). rewrite K2. destruct (last s d) as [l|] eqn:L; cbn [option_map].
    - destruct (K d l L) as (i & x & c & A & (e1 & e2 & s1 & B)). destruct B as (B1 & B2 & B3 & B4 & <- & <-).
      exists i, e1, e2, s1. rewrite <- A. do 4 (split; [assumption|]). cbv zeta. split; [reflexivity|].
      intros line. unfold hover. rewrite L. destruct (find _ l) as [y|] eqn:F.
      + apply find_some in F as [F1 F2]. apply andb_prop in F2 as [F2 F4]. apply andb_prop in F2 as [F2 F3]. apply Z.leb_le in F2, F3. split.
        * intros m Hm. exists y. auto.
        * intros N. rewrite N in F4. discriminate.
      + split; [discriminate|]. intros _ y Hy [R1 R2]. pose proof (find_none _ _ F y Hy) as G. cbn beta in G.
        apply Z.leb_le in R1, R2. rewrite R1, R2 in G. cbn in G. destruct (d_info y); [discriminate|reflexivity].
    - intros line. unfold hover. rewrite L. reflexivity.
  Qed.

  (** The newest run, when the earlier ones were settled. *)
  Definition harmless (r : run) : Prop := r_phase r = Done \/ was_cancelled r.
  Record latest (d : doc) (x : sel) (c0 : content) (i0 : nat) (s : state) : Prop := {
    l_lt : i0 < n s; l_doc : r_doc (runs s i0) = d; l_sel : r_sel (runs s i0) = x; l_file : file s d = c0;
    l_newest : forall k, i0 < k < n s -> r_doc (runs s k) <> d;
    l_old : forall k, k < i0 -> r_doc (runs s k) = d -> harmless (runs s k);
    l_phase : match r_phase (runs s i0) with
              | Queued | Working => True
              | Submitted c | Registered c => c = c0 /\ translate E d c x = None
              | Awaited o | Returned o => o = Some (outcome E d c0 x)
              | Done => published s d = Some (map (to_lsp d) (outcome E d c0 x))
              end }.
  Lemma harmless_move s s' k : inv s -> move s s' -> k < n s -> harmless (runs s k) -> harmless (runs s' k).
  Proof.
    intros (_ & I2 & _) M L H. specialize (I2 k L). unfold harmless, was_cancelled in *.
    destruct M; cbn [n runs set_run set_table add_run] in *; auto; cases_upd; auto; try lia;
      cbn [r_phase r_job with_phase with_job] in *; auto; unfold phase_ok in I2;
      try match goal with K : r_phase _ = _ |- _ => rewrite K in * end;
      try (decompose [or] H; try congruence; auto; fail).
    - destruct o; auto; right; left; decompose [or] H; congruence.
    - destruct o; auto; right; left; decompose [or] H; congruence.
  Qed.
  Definition quiet_for (d : doc) (e : event) : Prop :=
    match e with Write d' _ | Request d' _ => d' <> d | _ => True end.
  Lemma quiet_effect d e s s' : quiet_for d e -> step E e s = Some s' ->
    file s' d = file s d /\ (forall k, n s <= k < n s' -> r_doc (runs s' k) <> d).
  Proof.
    intros Q S. destruct e as [d' c|d' x|i|i|i|i|i|i|i]; cbn [quiet_for] in Q.
    - injection S as <-. cbn. rewrite upd_neq by auto. split; auto. intros; lia.
    - assert (file (cancel s d') = file s /\ n (cancel s d') = n s) as [F N].
      { unfold cancel, stop. destruct (table s d') as [j|]; auto. destruct (r_job (runs s j)); auto. }
      injection S as <-. cbn. rewrite F, N. split; auto. intros k L. assert (k = n s) as -> by lia. rewrite upd_eq. exact Q.
    - cbn [step] in S. destruct (_ && _ && _); [|discriminate]. injection S as <-. cbn. split; auto. intros; lia.
    - cbn [step] in S. destruct (i <? n s); [|discriminate]. destruct (r_phase _); try discriminate. destruct (translate _ _ _ _);
        injection S as <-; cbn; (split; [auto|intros; lia]).
    - cbn [step] in S. destruct (i <? n s); [|discriminate]. destruct (r_phase _); try discriminate.
        injection S as <-; cbn; (split; [auto|intros; lia]).
    - cbn [step] in S. destruct (i <? n s); [|discriminate]. destruct (r_phase _); try discriminate; destruct (r_job _); try discriminate;
        injection S as <-; cbn; (split; [auto|intros; lia]).
    - cbn [step] in S. destruct (i <? n s); [|discriminate]. destruct (r_phase _); try discriminate; destruct (r_job _); try discriminate;
        injection S as <-; cbn; (split; [auto|intros; lia]).
    - cbn [step] in S. destruct (i <? n s); [|discriminate]. destruct (r_phase _); try discriminate.
      injection S as <-. destruct (table s _) as [k|]; [destruct (k =? i)|]; cbn; (split; [auto|intros; lia]).
    - cbn [step] in S. destruct (i <? n s); [|discriminate]. destruct (r_phase _) as [| | | | |o|]; try discriminate.
      injection S as <-. destruct o; cbn; (split; [auto|intros; lia]).
  Qed.
  Lemma latest_move d x c0 i0 s s' : inv s -> move s s' -> file s' d = file s d ->
    (forall k, n s <= k < n s' -> r_doc (runs s' k) <> d) -> latest d x c0 i0 s -> latest d x c0 i0 s'.
  Proof.
    intros I M F NW [L D S FL NE OLD PH]. pose proof (move_n _ _ M) as NN.
    destruct (move_const _ _ i0 M L) as [D' S'].
    constructor; try congruence; try lia.
    - intros k K. destruct (Nat.lt_ge_cases k (n s)) as [LT|GE]; [|apply NW; lia].
      destruct (move_const _ _ k M LT) as [-> _]. apply NE. lia.
    - intros k K DK. destruct (move_const _ _ k M ltac:(lia)) as [DK' _]. apply (harmless_move s); auto; [lia|].
      apply OLD; auto. congruence.
    - assert (forall ds k, k < n s -> r_phase (runs s k) = Returned (Some ds) -> r_doc (runs s k) = d -> k = i0) as ONLY.
      { intros ds k K P DK. destruct (Nat.lt_trichotomy k i0) as [LT|[EQ|GT]]; auto.
        - exfalso. destruct (OLD k LT DK) as [H|[H|[H|H]]]; try congruence.
          destruct I as (_ & I2 & _). specialize (I2 k K). unfold phase_ok in I2. rewrite P in I2. contradiction.
        - exfalso. apply (NE k); auto. }
      destruct I as (I1 & I2 & I3).
      destruct M; cbn [n runs published file set_run set_table add_run] in *;
        try (destruct (Nat.eq_dec i0 i) as [EQ|NQ];
             [subst i; rewrite upd_eq; cbn [r_phase with_phase with_job]|try (rewrite upd_neq by auto; exact PH)]).
      + exact PH.
      + rewrite upd_neq by lia. exact PH.
      + rewrite upd_neq by lia. destruct (Nat.eq_dec i0 i) as [EQ|NQ]; [|rewrite upd_neq by auto; exact PH].
        subst i. rewrite upd_eq. exact PH.
      + exact Logic.I.
      + rewrite D, S, FL in H1. unfold outcome. now rewrite H1.
      + rewrite D, S, FL in *. auto.
      + rewrite H0 in PH. exact PH.
      + exact PH.
      + rewrite H0 in PH. destruct PH as [-> T]. rewrite D, S. unfold outcome. now rewrite T.
      + exfalso. destruct (I3 i0 H H1) as (k & K & DK). apply (NE k K). congruence.
      + rewrite H0 in PH. exact PH.
      + rewrite H0 in PH. exact PH.
      + rewrite H0 in PH. discriminate.
      + rewrite H0 in PH. injection PH as ->. rewrite D, upd_eq. reflexivity.
      + rewrite upd_neq by auto.
        assert (r_doc (runs s i) <> d) as ND by (intros X; apply NQ; symmetry; eapply ONLY; eauto).
        destruct (r_phase (runs s i0)); auto. rewrite upd_neq; auto.
  Qed.
  Lemma latest_exec d x c0 i0 es : forall s s', inv s -> latest d x c0 i0 s -> Forall (quiet_for d) es ->
    exec E es s = Some s' -> latest d x c0 i0 s'.
  Proof.
    induction es as [|e es IH]; cbn; intros s s' I L F X; [now injection X as <-|].
    destruct (step E e s) as [s1|] eqn:S; [|discriminate]. pose proof (step_move _ _ _ S) as M.
    destruct (quiet_effect d e s s1 (Forall_inv F) S) as [Q1 Q2].
    eapply (IH s1); [eapply inv_move; eauto|eapply latest_move; eauto|exact (Forall_inv_tail F)|exact X].
  Qed.
  Lemma latest_start d x s : settled s d -> latest d x (file s d) (n s) (add_run (cancel s d) d x).
  Proof.
    intros ST.
    assert (file (cancel s d) = file s /\ n (cancel s d) = n s) as [F N].
    { unfold cancel, stop. destruct (table s d) as [j|]; auto. destruct (r_job (runs s j)); auto. }
    constructor; cbn [n runs file add_run]; rewrite ?N, ?F, ?upd_eq; cbn; auto; try lia.
    intros k K. rewrite upd_neq by lia. unfold cancel, stop. intros DK.
    assert (r_doc (runs s k) = d -> harmless (runs s k) \/ (table s d = Some k /\ r_job (runs s k) = JPending)) as H.
      { intros DK'. destruct (ST k K DK') as [H|[H|H]]; auto; left; [left|right]; auto. }
      destruct (table s d) as [j|] eqn:T; [|destruct (H DK) as [A|[A _]]; [auto|discriminate]].
      destruct (r_job (runs s j)) eqn:J; cbn [runs set_run] in *.
    + destruct (Nat.eq_dec k j) as [->|NQ]; [rewrite upd_eq; right; left; reflexivity|].
      rewrite upd_neq in * by auto. destruct (H DK) as [A|[A _]]; [auto|congruence].
    + destruct (H DK) as [A|[A B]]; [auto|congruence].
    + destruct (H DK) as [A|[A B]]; [auto|congruence].
  Qed.
  Lemma current f e1 e2 s1 s d x : exec E e1 (init f) = Some s1 -> settled s1 d ->
    Forall (fun e => match e with Write d' _ | Request d' _ => d' <> d | _ => True end) e2 ->
    exec E (e1 ++ Request d x :: e2) (init f) = Some s -> quiet s d ->
    published s d = Some (map (to_lsp d) (outcome E d (file s d) x)).
  Proof.
    intros X1 ST F X Q. rewrite exec_app, X1 in X. cbn [exec] in X.
    destruct (step E (Request d x) s1) as [s2|] eqn:S; [|discriminate].
    assert (inv s2) as I2 by (eapply inv_move; [eapply inv_exec; [apply (inv_init f)|exact X1]|eapply step_move; exact S]).
    injection S as <-. destruct (latest_exec _ _ _ _ _ _ _ I2 (latest_start d x s1 ST) F X) as [L D SL FL NE OLD PH].
    rewrite (Q _ L D) in PH. now rewrite FL.
  Qed.

  (** Every verification can end. *)
  Definition rank (p : phase) : nat :=
    match p with Queued => 6 | Working => 5 | Submitted _ => 4 | Registered _ => 3 | Awaited _ => 2 | Returned _ => 1 | Done => 0 end.
  Definition weight (r : run) : nat := 2 * rank (r_phase r) + match r_job r with JPending => 1 | _ => 0 end.
  Definition total (s : state) : nat := list_sum (map (fun i => weight (runs s i)) (seq 0 (n s))).
  Lemma sum_less (f g : nat -> nat) l i : In i l -> f i < g i -> (forall k, f k <= g k) -> list_sum (map f l) < list_sum (map g l).
  Proof.
    intros H L LE. unfold list_sum. assert (forall m, list_sum (map f m) <= list_sum (map g m)) as A.
    { induction m as [|k m IH]; unfold list_sum in *; cbn [map fold_right]; auto. specialize (LE k). lia. }
    unfold list_sum in A.
    induction l as [|k l IH]; [contradiction|]. cbn [map fold_right]. destruct H as [->|H]; [specialize (A l); lia|]. specialize (LE k). specialize (IH H). lia.
  Qed.
  Lemma less s s' i : n s' = n s -> i < n s -> weight (runs s' i) < weight (runs s i) ->
    (forall k, k <> i -> runs s' k = runs s k) -> total s' < total s.
  Proof.
    intros N L W O. unfold total. rewrite N. apply sum_less with i; auto. { apply in_seq. lia. }
    intros k. destruct (Nat.eq_dec k i) as [->|NE]; [lia|rewrite O; auto].
  Qed.
  Definition internal (e : event) : Prop := match e with Write _ _ | Request _ _ => False | _ => True end.
  Lemma can_step s : ~ all_done s -> exists e s', internal e /\ step E e s = Some s' /\ n s' = n s /\ total s' < total s.
  Proof.
    intros ND.
    destruct (existsb (fun i => negb (is_queued (r_phase (runs s i))) && negb (rank (r_phase (runs s i)) =? 0)) (seq 0 (n s))) eqn:X.
    - apply existsb_exists in X as (i & I & X). apply in_seq in I. assert (i < n s) as L by lia. clear I.
      pose proof L as LB. apply Nat.ltb_lt in LB. apply andb_prop in X as [X1 X2].
      destruct (r_phase (runs s i)) as [| |c|c|o|o|] eqn:P; try discriminate.
      + assert (step E (Translate i) s <> None) as S.
        { cbn [step]. rewrite LB, P. destruct (translate _ _ _ _); discriminate. }
        destruct (step E (Translate i) s) as [s'|] eqn:S'; [|congruence]. exists (Translate i), s'. split; [exact Logic.I|]. split; auto.
        cbn [step] in S'. rewrite LB, P in S'. destruct (translate _ _ _ _); injection S' as <-; (split; [reflexivity|]);
          apply less with i; auto; cbn; unfold weight; try (intros; now rewrite upd_neq); rewrite upd_eq, P; cbn; lia.
      + eexists (Register i), _. split; [exact Logic.I|]. split; [cbn [step]; rewrite LB, P; reflexivity|]. split; [reflexivity|].
        apply less with i; auto; cbn; unfold weight; try (intros; now rewrite upd_neq); rewrite upd_eq, P; cbn; lia.
      + destruct (r_job (runs s i)) eqn:J.
        * eexists (Finish i), _. split; [exact Logic.I|]. split; [cbn [step]; rewrite LB, P, J; reflexivity|]. split; [reflexivity|].
          apply less with i; auto; cbn; unfold weight; try (intros; now rewrite upd_neq); rewrite upd_eq; cbn; rewrite P, J; lia.
        * eexists (Await i), _. split; [exact Logic.I|]. split; [cbn [step]; rewrite LB, P, J; reflexivity|]. split; [reflexivity|].
          apply less with i; auto; cbn; unfold weight; try (intros; now rewrite upd_neq); rewrite upd_eq; cbn; rewrite P, J; cbn; lia.
        * eexists (Await i), _. split; [exact Logic.I|]. split; [cbn [step]; rewrite LB, P, J; reflexivity|]. split; [reflexivity|].
          apply less with i; auto; cbn; unfold weight; try (intros; now rewrite upd_neq); rewrite upd_eq; cbn; rewrite P, J; cbn; lia.
      + eexists (Deregister i), _. split; [exact Logic.I|]. split; [cbn [step]; rewrite LB, P; reflexivity|].
        destruct (table s (r_doc (runs s i))) as [k|]; [destruct (k =? i)|]; (split; [reflexivity|]);
          apply less with i; auto; cbn; unfold weight; try (intros; now rewrite upd_neq); rewrite upd_eq, P; cbn; lia.
      + eexists (Publish i), _. split; [exact Logic.I|]. split; [cbn [step]; rewrite LB, P; reflexivity|].
        destruct o; (split; [reflexivity|]);
          apply less with i; auto; cbn; unfold weight; try (intros; now rewrite upd_neq); rewrite upd_eq, P; cbn; lia.
    - assert (forall i, i < n s -> is_queued (r_phase (runs s i)) = true \/ r_phase (runs s i) = Done) as ALL.
      { intros i L. destruct (r_phase (runs s i)) eqn:P; auto; exfalso;
          assert (existsb (fun i => negb (is_queued (r_phase (runs s i))) && negb (rank (r_phase (runs s i)) =? 0)) (seq 0 (n s)) = true) as Y
            by (apply existsb_exists; exists i; split; [apply in_seq; lia|rewrite P; reflexivity]); congruence. }
      assert (exists i, i < n s /\ first_queued s i = true) as (i & L & FQ).
      { assert (forall m, m <= n s -> (forall k, k < m -> r_phase (runs s k) = Done) \/ exists i, i < m /\ first_queued s i = true) as H.
        { induction m as [|m IH]; intros LE; [left; lia|]. destruct IH as [H|(i & L & Q)]; [lia| |right; exists i; auto].
          destruct (ALL m ltac:(lia)) as [Q|D].
          - right. exists m. split; auto. unfold first_queued. rewrite Q. cbn. apply forallb_forall. intros k K. apply in_seq in K.
            rewrite H by lia. reflexivity.
          - left. intros k K. destruct (Nat.eq_dec k m) as [->|]; auto. apply H. lia. }
        destruct (H (n s) (le_n _)) as [A|A]; [exfalso; apply ND; exact A|exact A]. }
      assert (workers s = 0) as W.
      { unfold workers. assert (forall l, (forall k, In k l -> k < n s) -> length (filter (fun i => busy (r_phase (runs s i))) l) = 0) as H.
        { induction l as [|k l IH]; intros B; cbn; auto. destruct (ALL k) as [Q|D]; [apply B; cbn; auto| |].
          - destruct (r_phase (runs s k)); try discriminate. cbn. apply IH. intros; apply B; cbn; auto.
          - rewrite D. cbn. apply IH. intros; apply B; cbn; auto. }
        apply H. intros k K. apply in_seq in K. lia. }
      pose proof L as LB. apply Nat.ltb_lt in LB.
      eexists (Take i), _. split; [exact Logic.I|]. split; [cbn [step]; rewrite LB, FQ, W; reflexivity|]. split; [reflexivity|].
      apply less with i; auto; cbn; unfold weight; try (intros; now rewrite upd_neq).
      rewrite upd_eq. unfold first_queued in FQ. apply andb_prop in FQ as [FQ _]. destruct (r_phase (runs s i)); try discriminate. cbn. lia.
  Qed.
  Lemma all_done_dec s : all_done s \/ ~ all_done s.
  Proof.
    destruct (forallb (fun i => rank (r_phase (runs s i)) =? 0) (seq 0 (n s))) eqn:F.
    - left. intros i L. rewrite forallb_forall in F. specialize (F i ltac:(apply in_seq; lia)). destruct (r_phase (runs s i)); try discriminate. reflexivity.
    - right. intros A. assert (forallb (fun i => rank (r_phase (runs s i)) =? 0) (seq 0 (n s)) = true); [|congruence].
      apply forallb_forall. intros i I. apply in_seq in I. rewrite A by lia. reflexivity.
  Qed.
  Lemma can_end : forall s, exists es s', Forall internal es /\ exec E es s = Some s' /\ n s' = n s /\ all_done s'.
  Proof.
    intros s. remember (total s) as m eqn:M. revert s M. induction m as [m IH] using lt_wf_ind. intros s ->.
    destruct (all_done_dec s) as [A|A]; [exists [], s; cbn; auto|].
    destruct (can_step s A) as (e & s1 & I & S & N & L). destruct (IH _ L s1 eq_refl) as (es & s' & F & X & N' & D).
    exists (e :: es), s'. cbn [exec]. rewrite S. split; [constructor; auto|]. split; auto. split; [congruence|exact D].
  Qed.
End Server.

(** Reading off a state. *)
Lemma exec_view {B} (v : state -> B) b E es s0 : option_map v (exec E es s0) = Some b ->
  exists s, exec E es s0 = Some s /\ v s = b.
Proof. destruct (exec E es s0) as [s|]; [|discriminate]. intros [= <-]. eauto. Qed.

(** Positions. *)
Lemma position uri d : (1 <= d_start_line d)%Z -> (0 <= d_start_col d)%Z -> (1 <= d_end_line d)%Z -> (0 <= d_end_col d)%Z ->
  l_start (to_lsp uri d) = (d_start_line d - 1, d_start_col d)%Z /\ l_end (to_lsp uri d) = (d_end_line d - 1, d_end_col d)%Z /\
  l_message (to_lsp uri d) = d_message d.
Proof. intros. cbn. split; [|split; [|reflexivity]]; f_equal; lia. Qed.
Lemma column_ascii line k : Forall (fun c => (c < 128)%N) (firstn k line) -> offset utf8_len line k = offset utf16_len line k.
Proof.
  unfold offset. generalize (firstn k line). induction l as [|c l IH]; intros F; [reflexivity|]. cbn [map fold_right].
  rewrite IH by exact (Forall_inv_tail F). f_equal. pose proof (Forall_inv F) as H. cbn in H. unfold utf8_len, utf16_len.
  replace (c <? 128)%N with true by (symmetry; apply N.ltb_lt; lia). replace (c <? 65536)%N with true by (symmetry; apply N.ltb_lt; lia). reflexivity.
Qed.

(** Words. *)
Section Word.
  Context {A : Type} (isword : A -> bool) (line : list A).
  Notation wc := (word_char isword line).
  Lemma word_start_spec c : word_start isword line c <= c /\ (forall i, word_start isword line c <= i < c -> wc i = true) /\
    (forall p, word_start isword line c = S p -> wc p = false).
  Proof.
    induction c as [|c (I1 & I2 & I3)]; cbn [word_start]; [repeat split; intros; try lia; discriminate|].
    destruct (wc c) eqn:W.
    - repeat split; auto. intros i L. destruct (Nat.eq_dec i c) as [->|]; auto. apply I2. lia.
    - repeat split; auto; intros; try lia. congruence.
  Qed.
  Lemma wc_lt i : wc i = true -> i < length line.
  Proof. unfold word_char. intros H. apply nth_error_Some. destruct (nth_error line i); [discriminate|discriminate]. Qed.
  Lemma word_end_spec f : forall c, length line - c <= f -> c <= length line ->
    c <= word_end isword line f c <= length line /\ (forall i, c <= i < word_end isword line f c -> wc i = true) /\
    wc (word_end isword line f c) = false.
  Proof.
    induction f as [|f IH]; intros c F L; cbn [word_end].
    - repeat split; try lia. destruct (wc c) eqn:W; auto. apply wc_lt in W. lia.
    - destruct (c <? length line) eqn:LT; cbn [andb].
      + apply Nat.ltb_lt in LT. destruct (wc c) eqn:W; [|repeat split; auto; intros; lia].
        destruct (IH (S c)) as (B & C & D); try lia. repeat split; auto; try lia.
        intros i K. destruct (Nat.eq_dec i c) as [->|]; auto. apply C. lia.
      + apply Nat.ltb_ge in LT. repeat split; auto; try lia. destruct (wc c) eqn:W; auto. apply wc_lt in W. lia.
  Qed.
  Lemma wc_of i x : nth_error line i = Some x -> wc i = isword x.
  Proof. unfold word_char. now intros ->. Qed.
  Lemma cut_empty a b : a <= b <= length line -> firstn (b - a) (skipn a line) = [] -> a = b.
  Proof. intros L H. apply (f_equal (@length A)) in H. rewrite firstn_length, skipn_length in H. cbn in H. lia. Qed.
  Lemma word_at_span char w : word_at isword line char = Some w ->
    exists a b, span isword line char a b /\ w = firstn (b - a) (skipn a line).
  Proof.
    unfold word_at. destruct (length line <? char) eqn:L; [discriminate|]. apply Nat.ltb_ge in L.
    destruct (word_start_spec char) as (A1 & A2 & A3). destruct (word_end_spec (length line - char) char) as (B1 & B2 & B3); auto.
    set (a := word_start isword line char) in *. set (b := word_end isword line (length line - char) char) in *.
    intros H. exists a, b.
    assert (w = firstn (b - a) (skipn a line) /\ w <> []) as [-> NE].
    { destruct (firstn (b - a) (skipn a line)); [discriminate|]. injection H as <-. split; [reflexivity|discriminate]. }
    split; auto. unfold span. repeat split; try lia.
    - destruct (Nat.eq_dec a b) as [E|]; [|lia]. exfalso. apply NE. rewrite E, Nat.sub_diag. reflexivity.
    - intros i x K X. rewrite <- (wc_of i x X). destruct (Nat.lt_ge_cases i char); [apply A2|apply B2]; lia.
    - intros p x E X. rewrite <- (wc_of p x X). auto.
    - intros x X. rewrite <- (wc_of b x X). auto.
  Qed.
  Lemma word_at_none char : word_at isword line char = None -> forall a b, ~ span isword line char a b.
  Proof.
    unfold word_at. intros H a b (S1 & S2 & S3 & S4 & _). destruct (length line <? char) eqn:L.
    { apply Nat.ltb_lt in L. lia. }
    apply Nat.ltb_ge in L.
    destruct (word_start_spec char) as (A1 & A2 & A3). destruct (word_end_spec (length line - char) char) as (B1 & B2 & B3); auto.
    set (a' := word_start isword line char) in *. set (b' := word_end isword line (length line - char) char) in *.
    assert (a' = b') as E.
    { apply cut_empty; [lia|]. destruct (firstn (b' - a') (skipn a' line)); [reflexivity|discriminate]. }
    assert (a' = char /\ b' = char) as [E1 E2] by lia.
    assert (forall i, a <= i < b -> wc i = true) as W.
    { intros i K. destruct (nth_error line i) as [x|] eqn:X; [rewrite (wc_of i x X); eapply S4; eauto|]. apply nth_error_None in X. lia. }
    destruct (Nat.eq_dec char b) as [->|NB].
    - destruct b as [|p]; [lia|]. assert (wc p = true) by (apply W; lia). rewrite (A3 p E1) in *. discriminate.
    - assert (wc char = true) by (apply W; lia). rewrite E2 in B3. congruence.
  Qed.
End Word.
