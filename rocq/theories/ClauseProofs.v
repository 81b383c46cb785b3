From Coq Require Import List Arith Bool Lia Sorted.
From Verif Require Import ClauseSpec ClauseModel.
Import ListNotations.

(** Induction over statements. *)
Section Ind.
  Variable P : stmt -> Prop.
  Hypothesis HDoc : P Doc.
  Hypothesis HGlobal : P Global.
  Hypothesis HExists : forall cs, P (Exists cs).
  Hypothesis HClause : forall k i inner, P (Clause k i inner).
  Hypothesis HCall : forall k i, P (Call k i).
  Hypothesis HPlain : forall i inner, P (Plain i inner).
  Hypothesis HBlock : forall i bs, Forall (Forall P) bs -> P (Block i bs).
  Hypothesis HLoop : forall i b o, Forall P b -> Forall P o -> P (Loop i b o).
  Fixpoint stmt_ind' (s : stmt) : P s :=
    let go := fix go (l : list stmt) : Forall P l :=
      match l with [] => Forall_nil P | s :: l => Forall_cons s (stmt_ind' s) (go l) end in
    match s with
    | Doc => HDoc | Global => HGlobal
    | Exists cs => HExists cs
    | Clause k i inner => HClause k i inner
    | Call k i => HCall k i
    | Plain i inner => HPlain i inner
    | Block i bs => HBlock i bs
        ((fix gos (l : list (list stmt)) : Forall (Forall P) l :=
            match l with [] => Forall_nil _ | b :: l => Forall_cons b (go b) (gos l) end) bs)
    | Loop i b o => HLoop i b o (go b) (go o)
    end.
End Ind.

Lemma all_Forall (P : stmt -> Prop) b : fold_right (fun s p => P s /\ p) True b <-> Forall P b.
Proof.
  induction b as [|s b IH]; cbn; [split; auto|]. rewrite IH. split; [intros (A & B); constructor; assumption|].
  intros H. inversion H; auto.
Qed.
Lemma alls_Forall (P : stmt -> Prop) bs :
  fold_right (fun b p => fold_right (fun s p => P s /\ p) True b /\ p) True bs <-> Forall (Forall P) bs.
Proof.
  induction bs as [|s b IH]; cbn; [split; auto|]. rewrite IH, all_Forall. split; [intros (A & B); constructor; assumption|].
  intros H. inversion H; auto.
Qed.

(** * Collected clauses *)
Definition field (k : kind) (a : acc) : list arg :=
  match k with KReq => a_pre a | KEns => a_post a | KExs => a_exc a | KDec => a_dec a | KInv => a_inv a end.
Definition names (l : list arg) : list nat := map fst l.
Lemma names_app a b : names (a ++ b) = names a ++ names b.
Proof. apply map_app. Qed.

Lemma join_some x y a : join x y = Some a ->
  exists u v, x = Some u /\ y = Some v /\ forall k, field k a = field k u ++ field k v.
Proof.
  destruct x as [u|], y as [v|]; cbn; try discriminate. intros [= <-]. exists u, v. repeat split. intros []; reflexivity.
Qed.
Lemma join_all_names {A} (g : A -> option acc) (h : kind -> A -> list nat) l : 
  Forall (fun x => forall a, g x = Some a -> forall k, names (field k a) = h k x) l ->
  forall a, join_all (map g l) = Some a -> forall k, names (field k a) = concat (map (h k) l).
Proof.
  induction 1 as [|x l H _ IH]; intros a E k; cbn in E.
  - injection E as <-. destruct k; reflexivity.
  - destruct (join_some _ _ _ E) as (u & v & E1 & E2 & F). rewrite F. rewrite names_app. cbn. f_equal.
    + apply H; assumption.
    + apply IH; assumption.
Qed.

Section Fun.
  Variable fp fi : bool.
  Notation visit := (visit fp fi).
  Notation visit_clause := (visit_clause fp fi).
  Notation visit_inner := (visit_inner fp fi).
  Notation visit_body := (visit_body fp fi).
  Notation translate := (translate fp fi).

  Lemma clause_names inl k x a : visit_clause inl k x = Some a -> forall k', names (field k' a) = if kind_eqb k' k then [fst x] else [].
  Proof.
    unfold ClauseModel.visit_clause. destruct (fi && negb (kind_eqb k KInv)); [discriminate|].
    destruct k; try (destruct fp; [|discriminate]); try (destruct inl; [|discriminate]); intros [= <-] []; reflexivity.
  Qed.
  Lemma inner_names inl cs a : visit_inner inl cs = Some a -> forall k, names (field k a) = pick k cs.
  Proof.
    unfold ClauseModel.visit_inner. intros E k. revert a E. induction cs as [|c cs IH]; intros a E; cbn in E.
    - injection E as <-. destruct k; reflexivity.
    - destruct (join_some _ _ _ E) as (u & v & E1 & E2 & F). rewrite F. rewrite names_app. rewrite (IH _ E2), (clause_names _ _ _ _ E1). unfold pick. cbn.
      destruct (kind_eqb k (fst c)); reflexivity.
  Qed.
  Lemma visit_names s : forall inl a, visit inl s = Some a -> forall k, names (field k a) = said k s.
  Proof.
    induction s as [| |cs|k' i inner|k' i|i inner|i bs IH|i b o IHb IHo] using stmt_ind'; intros inl a E k; cbn in E.
    - injection E as <-. destruct k; reflexivity.
    - injection E as <-. destruct k; reflexivity.
    - exact (inner_names _ _ _ E k).
    - destruct (join_some _ _ _ E) as (u & v & E1 & E2 & F). rewrite F. rewrite names_app. rewrite (inner_names _ _ _ E2), (clause_names _ _ _ _ E1). cbn. unfold pick. cbn.
      destruct (kind_eqb k k'); reflexivity.
    - injection E as <-. destruct k; reflexivity.
    - exact (inner_names _ _ _ E k).
    - refine (join_all_names (fun b => join_all (map (visit inl) b)) (fun k b => concat (map (said k) b)) bs _ a E k).
      eapply Forall_impl; [|exact IH]. intros b H a' E' k'. refine (join_all_names (visit inl) said b _ a' E' k').
      eapply Forall_impl; [|exact H]. intros s H' a'' E''. exact (H' inl a'' E'').
    - destruct (join _ _) as [a'|] eqn:J; [|discriminate]. injection E as <-.
      destruct (join_some _ _ _ J) as (u & v & E1 & E2 & F).
      assert (B : forall k, names (field k u) = concat (map (said k) b)).
      { refine (join_all_names (visit true) said b _ u E1). eapply Forall_impl; [|exact IHb]. intros s H' a'' E''. exact (H' true a'' E''). }
      assert (O : forall k, names (field k v) = concat (map (said k) o)).
      { refine (join_all_names (visit true) said o _ v E2). eapply Forall_impl; [|exact IHo]. intros s H' a'' E''. exact (H' true a'' E''). }
      cbn [said]. specialize (F k) as Fk. specialize (B k). specialize (O k).
      destruct k; cbn [field a_pre a_post a_exc a_dec a_inv] in *; try reflexivity; rewrite Fk; rewrite names_app; f_equal; assumption.
  Qed.
  Lemma body_names inl b a : visit_body inl b = Some a -> forall k, names (field k a) = says k b.
  Proof.
    intros E k. refine (join_all_names (visit inl) said b _ a E k). apply Forall_forall. intros s _ a' E'. exact (visit_names s inl a' E').
  Qed.

  Lemma args_names l ns : translate_args l = Some ns -> ns = names l.
  Proof.
    unfold translate_args. revert ns. induction l as [|(n & inner) l IH]; intros ns E; cbn in E.
    - injection E as <-. reflexivity.
    - destruct inner; [|discriminate]. destruct (sequence1 _) as [y|] eqn:S1; [|discriminate]. injection E as <-.
      rewrite (IH _ eq_refl). reflexivity.
  Qed.
  Lemma args_plain l ns : translate_args l = Some ns -> Forall (fun x => snd x = []) l.
  Proof.
    unfold translate_args. revert ns. induction l as [|(n & inner) l IH]; intros ns E; cbn in E; [constructor|].
    destruct inner; [|discriminate]. destruct (sequence1 _) as [y|] eqn:S1; [|discriminate]. constructor; [reflexivity|]. exact (IH _ eq_refl).
  Qed.
  Lemma args_ok l : Forall (fun x : arg => snd x = []) l -> translate_args l = Some (names l).
  Proof.
    unfold translate_args. induction 1 as [|(n & inner) l H _ IH]; cbn; [reflexivity|]. cbn in H. subst inner. rewrite IH. reflexivity.
  Qed.

  (** * The indices *)
  Definition preds : list (stmt -> bool) :=
    [is_docstring; is_global; is_io_existential; is_invariant; is_pre; is_decreases; is_post; is_exception_decl].
  Fixpoint drop_while (p : stmt -> bool) (l : list stmt) : list stmt :=
    match l with [] => [] | s :: l' => if p s then drop_while p l' else l end.
  Lemma count_drop p l : skipn (count_while p l) l = drop_while p l.
  Proof. induction l as [|s l IH]; cbn; [reflexivity|]. destruct (p s); [exact IH|reflexivity]. Qed.
  Lemma count_le p l : count_while p l <= length l.
  Proof. induction l as [|s l IH]; cbn; [lia|]. destruct (p s); lia. Qed.
  Lemma skipn_skipn' {A} n m (l : list A) : skipn n (skipn m l) = skipn (m + n) l.
  Proof. revert l. induction m as [|m IH]; intros l; cbn; [reflexivity|]. destruct l; [apply skipn_nil|]. apply IH. Qed.
  Definition start_of (l : list stmt) : nat := fold_left (skip l) preds 0.
  Definition rest_of (l : list stmt) : list stmt := fold_left (fun l p => drop_while p l) preds l.
  Lemma start_rest l : skipn (start_of l) l = rest_of l.
  Proof.
    unfold start_of, rest_of. 
    assert (G : forall ps n r, skipn n l = r -> skipn (fold_left (skip l) ps n) l = fold_left (fun l p => drop_while p l) ps r).
    { induction ps as [|p ps IH]; intros n r E; cbn [fold_left]; [exact E|]. apply IH. unfold skip.
      rewrite <- skipn_skipn', E. apply count_drop. }
    apply G. reflexivity.
  Qed.
  Lemma start_le l : start_of l <= length l.
  Proof.
    unfold start_of. assert (G : forall ps n, n <= length l -> fold_left (skip l) ps n <= length l).
    { induction ps as [|p ps IH]; intros n H; cbn [fold_left]; [exact H|]. apply IH. unfold skip.
      pose proof (count_le p (skipn n l)) as L. rewrite skipn_length in L. lia. }
    apply G. lia.
  Qed.
  Lemma drop_split p l : exists m, l = m ++ drop_while p l /\ Forall (fun s => p s = true) m.
  Proof.
    induction l as [|s l (m & E & F)]; cbn; [exists []; split; [reflexivity|constructor]|].
    destruct (p s) eqn:P.
    - exists (s :: m). split; [cbn; f_equal; exact E|constructor; assumption].
    - exists []. split; [reflexivity|constructor].
  Qed.
  (** Trailing postconditions are dropped. *)
  Definition strip (l : list stmt) : list stmt := rev (drop_while is_post (rev l)).
  Lemma strip_split l : exists t, l = strip l ++ t /\ Forall (fun s => is_post s = true) t.
  Proof.
    destruct (drop_split is_post (rev l)) as (m & E & F). exists (rev m). split.
    - unfold strip. rewrite <- rev_app_distr, <- E. symmetry. apply rev_involutive.
    - apply Forall_rev. exact F.
  Qed.
  Lemma count_app p a b : count_while p (a ++ b) =
    if forallb p a then length a + count_while p b else count_while p a.
  Proof. induction a as [|x a IH]; cbn; [reflexivity|]. destruct (p x); cbn; [|reflexivity]. rewrite IH. destruct (forallb p a); reflexivity. Qed.
  Lemma drop_all p l : forallb p l = true -> drop_while p l = [].
  Proof. induction l as [|x l IH]; cbn; [reflexivity|]. destruct (p x); cbn; [exact IH|discriminate]. Qed.

  Lemma slice_map {A} (g : stmt -> A) l ix : slice ix (map g l) = map g (slice ix l).
  Proof. unfold slice. rewrite skipn_map, firstn_map. reflexivity. Qed.

  Lemma body_slice l : slice (body_indices l) l = strip (rest_of l).
  Proof.
    assert (B : body_indices l = (start_of l, if start_of l =? length l then length l else length l - count_while is_post (rev l))) by reflexivity.
    rewrite B. clear B. unfold slice. cbn [fst snd]. rewrite start_rest. pose proof (start_rest l) as SR. pose proof (start_le l) as SL.
    set (st := start_of l) in *. set (r := rest_of l) in *.
    assert (LR : length r = length l - st) by (rewrite <- SR, skipn_length; reflexivity).
    destruct (Nat.eqb_spec st (length l)) as [->|N].
    - destruct r; [|cbn in LR; lia]. rewrite firstn_nil. reflexivity.
    - assert (E : l = firstn st l ++ r) by (rewrite <- SR; symmetry; apply firstn_skipn).
      rewrite E at 2. rewrite rev_app_distr, count_app. unfold strip.
      destruct (forallb is_post (rev r)) eqn:FB.
      + rewrite (drop_all _ _ FB). cbn [rev]. rewrite rev_length.
        replace (length l - (length r + count_while is_post (rev (firstn st l))) - st) with 0 by lia. reflexivity.
      + destruct (drop_split is_post (rev r)) as (m & Em & Fm).
        assert (CW : count_while is_post (rev r) = length m).
        { pose proof (count_drop is_post (rev r)) as CD. apply (f_equal (@length _)) in CD. rewrite skipn_length in CD.
          pose proof (count_le is_post (rev r)). apply (f_equal (@length _)) in Em. rewrite app_length in Em. lia. }
        rewrite CW. assert (Er : r = rev (drop_while is_post (rev r)) ++ rev m)
          by (rewrite <- rev_app_distr, <- Em; symmetry; apply rev_involutive).
        replace (length l - length m - st) with (length (rev (drop_while is_post (rev r)))).
        * rewrite Er at 2. rewrite firstn_app, firstn_all, Nat.sub_diag, firstn_O, app_nil_r. reflexivity.
        * apply (f_equal (@length _)) in Er. rewrite app_length, (rev_length m) in Er. lia.
  Qed.

  (** What is dropped at the beginning has the documented order. *)
  Definition headlike (s : stmt) : bool := existsb (fun p => p s) preds.
  Lemma rest_split l : exists h, l = h ++ rest_of l /\ Forall (fun s => headlike s = true) h.
  Proof.
    unfold rest_of. assert (G : forall ps l, (forall s p, In p ps -> p s = true -> headlike s = true) ->
      exists h, l = h ++ fold_left (fun l p => drop_while p l) ps l /\ Forall (fun s => headlike s = true) h).
    { induction ps as [|p ps IH]; intros l' H; cbn [fold_left]; [exists []; split; [reflexivity|constructor]|].
      destruct (drop_split p l') as (m & E & F). destruct (IH (drop_while p l')) as (h & E' & F').
      { intros s q I. apply H. right. exact I. }
      exists (m ++ h). split; [rewrite <- app_assoc, <- E'; exact E|]. apply Forall_app. split; [|exact F'].
      eapply Forall_impl; [|exact F]. intros s. apply H. left. reflexivity. }
    apply G. intros s p I T. unfold headlike. apply existsb_exists. exists p. auto.
  Qed.
  Lemma rest_sorted l : exists h, l = h ++ rest_of l /\ (Forall no_calls h -> StronglySorted le (map rank h)) /\ Forall (fun s => headlike s = true) h.
  Proof.
    assert (G : forall n ps l, (forall j p, nth_error ps j = Some p -> forall s, no_calls s -> p s = true -> rank s = n + j) ->
      (forall s p, In p ps -> p s = true -> headlike s = true) ->
      exists h, l = h ++ fold_left (fun l p => drop_while p l) ps l /\
        (Forall no_calls h -> StronglySorted le (map rank h) /\ Forall (fun s => n <= rank s) h) /\ Forall (fun s => headlike s = true) h).
    { intros n ps. revert n. induction ps as [|p ps IH]; intros n l' H HH; cbn [fold_left].
      - exists []. split; [reflexivity|]. split; [|constructor]. intros _. split; constructor.
      - destruct (drop_split p l') as (m & E & F).
        destruct (IH (S n) (drop_while p l')) as (h & E' & F' & G').
        { intros j q J s NC T. rewrite (H (S j) q J s NC T). lia. }
        { intros s q I. apply HH. right. exact I. }
        exists (m ++ h). split; [rewrite <- app_assoc, <- E'; exact E|]. split.
        + intros NC. apply Forall_app in NC. destruct NC as (N1 & N2). destruct (F' N2) as (S1 & S2).
          assert (M : Forall (fun s => rank s = n) m).
          { rewrite Forall_forall in F, N1 |- *. intros s I. rewrite (H 0 p eq_refl s (N1 s I) (F s I)). lia. }
          split.
          * rewrite map_app. clear - M S1 S2. induction M as [|s m Hs HM IHm]; cbn; [exact S1|]. constructor; [exact IHm|].
            apply Forall_app. split; [|].
            -- apply Forall_forall. intros x I. apply in_map_iff in I. destruct I as (y & <- & I). rewrite Forall_forall in HM. rewrite (HM y I). lia.
            -- apply Forall_forall. intros x I. apply in_map_iff in I. destruct I as (y & <- & I). rewrite Forall_forall in S2. specialize (S2 y I). lia.
          * apply Forall_app. split; [eapply Forall_impl; [|exact M]; intros s ->; lia|]. eapply Forall_impl; [|exact S2]. intros s. cbn. lia.
        + apply Forall_app. split; [|exact G']. eapply Forall_impl; [|exact F]. intros s. apply HH. left. reflexivity. }
    destruct (G 0 preds l) as (h & E & F & K).
    - intros j p J s NC T. unfold preds in J.
      do 8 (destruct j as [|j]; [cbn in J; injection J as <-; destruct s as [| |cs|[]|[]| | | ]; cbn in *; try discriminate; try contradiction; reflexivity|]).
      destruct j; discriminate.
    - intros s p I T. unfold headlike. apply existsb_exists. exists p. auto.
    - exists h. split; [exact E|]. split; [|exact K]. intros NC. destruct (F NC). assumption.
  Qed.

  (** * Translation *)
  Lemma seq_forall {A} (l : list (option (list A))) r : sequence l = Some r -> exists xs, l = map Some xs /\ r = concat xs.
  Proof.
    revert r. induction l as [|[x|] l IH]; intros r E; cbn in E; try discriminate.
    - injection E as <-. exists []. auto.
    - destruct (sequence l) as [y|]; [|discriminate]. injection E as <-. destruct (IH _ eq_refl) as (xs & -> & ->). exists (x :: xs). auto.
  Qed.
  Lemma seq_ok {A} (g : stmt -> option (list A)) h l : Forall (fun s => g s = Some (h s)) l -> sequence (map g l) = Some (concat (map h l)).
  Proof. induction 1 as [|s l H _ IH]; cbn; [reflexivity|]. rewrite H, IH. reflexivity. Qed.
  Lemma seq_inv {A} (g : stmt -> option (list A)) l r : sequence (map g l) = Some r ->
    exists h, Forall2 (fun s x => g s = Some x) l h /\ r = concat h.
  Proof.
    revert r. induction l as [|s l IH]; intros r E; cbn in E.
    - injection E as <-. exists []. split; [constructor|reflexivity].
    - destruct (g s) as [x|] eqn:G; [|discriminate]. destruct (sequence (map g l)) as [y|]; [|discriminate]. injection E as <-.
      destruct (IH _ eq_refl) as (h & F & ->). exists (x :: h). split; [constructor; assumption|reflexivity].
  Qed.

  Lemma headlike_meaning s : no_calls s -> headlike s = true -> meaning1 s = [].
  Proof. destruct s; cbn; intros; try reflexivity; try contradiction; discriminate. Qed.
  Lemma post_headlike s : is_post s = true -> headlike s = true.
  Proof. unfold headlike. intros H. apply existsb_exists. exists is_post. split; [|exact H]. cbn. tauto. Qed.
  Lemma meaning_app a b : meaning (a ++ b) = meaning a ++ meaning b.
  Proof. unfold meaning. rewrite map_app, concat_app. reflexivity. Qed.
  Lemma meaning_nil l : Forall no_calls l -> Forall (fun s => headlike s = true) l -> meaning l = [].
  Proof.
    intros A B. induction l as [|s l IH]; [reflexivity|]. inversion A; inversion B; subst. unfold meaning. cbn.
    rewrite headlike_meaning by assumption. apply IH; assumption.
  Qed.
  Lemma strip_meaning l : Forall no_calls l -> meaning (strip (rest_of l)) = meaning l.
  Proof.
    intros NC. destruct (rest_split l) as (h & E & F). destruct (strip_split (rest_of l)) as (t & Et & Ft).
    rewrite E at 2. rewrite Et at 2. rewrite E in NC. rewrite Et in NC. apply Forall_app in NC. destruct NC as (N1 & N2).
    apply Forall_app in N2. destruct N2 as (N2 & N3). rewrite !meaning_app, (meaning_nil h), (meaning_nil t); auto.
    - rewrite app_nil_r. reflexivity.
    - eapply Forall_impl; [|exact Ft]. exact post_headlike.
  Qed.
  Lemma in_strip l s : In s (strip l) -> In s l.
  Proof. destruct (strip_split l) as (t & E & _). intros I. rewrite E. apply in_or_app. auto. Qed.
  Lemma in_rest l s : In s (rest_of l) -> In s l.
  Proof. destruct (rest_split l) as (h & E & _). intros I. rewrite E. apply in_or_app. auto. Qed.

  Lemma seq_meaning l r : Forall (fun s => forall x, no_calls s -> translate s = Some x -> x = meaning1 s) l -> Forall no_calls l ->
    sequence (map translate l) = Some r -> r = meaning l.
  Proof.
    intros H NC E. destruct (seq_inv _ _ _ E) as (h & F & ->). unfold meaning. f_equal.
    clear E. revert H NC. induction F as [|s x l h E F IH]; intros H NC; [reflexivity|]. inversion H; inversion NC; subst. cbn. f_equal; auto.
  Qed.

End Fun.

  Theorem translate_meaning fp fi s : forall x, no_calls s -> translate fp fi s = Some x -> x = meaning1 s.
  Proof.
    induction s as [| |cs|k' i inner|k' i|i inner|i bs IH|i b o IHb IHo] using stmt_ind'; intros x NC E; cbn [ClauseModel.translate] in E.
    - injection E as <-. reflexivity.
    - destruct fp; [discriminate|]. injection E as <-. reflexivity.
    - discriminate.
    - discriminate.
    - contradiction.
    - destruct inner; [|discriminate]. injection E as <-. reflexivity.
    - cbn [no_calls] in NC. rewrite alls_Forall in NC.
      destruct (sequence1 _) as [xs|] eqn:S1; [|discriminate]. injection E as <-. cbn [meaning1]. f_equal. f_equal.
      revert xs S1 NC. induction IH as [|b bs Hb _ IHbs]; intros xs S1 NC; cbn in S1.
      + injection S1 as <-. reflexivity.
      + destruct (sequence (map (translate fp fi) b)) as [y|] eqn:SB; [|discriminate]. destruct (sequence1 _) as [z|]; [|discriminate].
        injection S1 as <-. inversion NC; subst. cbn. f_equal; [|apply IHbs; auto].
        exact (seq_meaning _ _ b y Hb H1 SB).
    - destruct NC as (NB & NO). rewrite all_Forall in NB. rewrite all_Forall in NO.
      destruct fp; [discriminate|]. destruct (join _ _) as [a|] eqn:J; [|discriminate].
      destruct (translate_args (a_inv a)) as [invs|] eqn:TA; [|discriminate].
      destruct (sequence (slice _ _)) as [b'|] eqn:SB; [|discriminate]. destruct (sequence (map _ o)) as [o'|] eqn:SO; [|discriminate].
      injection E as <-. cbn [meaning1]. f_equal. f_equal.
      + apply args_names in TA. rewrite TA. destruct (join_some _ _ _ J) as (u & v & E1 & E2 & F). specialize (F KInv). cbn [field] in F.
        rewrite F. rewrite names_app. f_equal; [exact (body_names _ _ _ _ _ E1 KInv)|exact (body_names _ _ _ _ _ E2 KInv)].
      + rewrite slice_map, body_slice in SB. rewrite (seq_meaning false fi (strip (rest_of b)) b'); [exact (strip_meaning b NB)| | |exact SB].
        * apply Forall_forall. intros s I. rewrite Forall_forall in IHb. apply IHb. apply in_rest, in_strip, I.
        * apply Forall_forall. intros s I. rewrite Forall_forall in NB. apply NB. apply in_rest, in_strip, I.
      + exact (seq_meaning _ _ o o' IHo NO SO).
  Qed.

Lemma in_field fp fi inl b a s : visit_body fp fi inl b = Some a -> In s b ->
  exists a', visit fp fi inl s = Some a' /\ forall k x, In x (field k a') -> In x (field k a).
Proof.
  unfold visit_body. revert a. induction b as [|s' b IH]; intros a E I; [contradiction|]. cbn in E.
  destruct (join_some _ _ _ E) as (u & v & E1 & E2 & F). destruct I as [-> | I].
  - exists u. split; [exact E1|]. intros k x H. rewrite F. apply in_or_app. auto.
  - destruct (IH v E2 I) as (a' & E' & H). exists a'. split; [exact E'|]. intros k x H'. rewrite F. apply in_or_app. right. auto.
Qed.
Lemma clause_field fp fi inl k i inner a : visit fp fi inl (Clause k i inner) = Some a -> In (i, inner) (field k a).
Proof.
  intros E. cbn in E. destruct (join_some _ _ _ E) as (u & v & E1 & _ & F). rewrite F. apply in_or_app. left.
  unfold visit_clause in E1. destruct (fi && negb (kind_eqb k KInv)); [discriminate|].
  destruct k; try (destruct fp; [|discriminate]); try (destruct inl; [|discriminate]); injection E1 as <-; cbn; auto.
Qed.
Lemma visit_of_function fp fi s a : visit fp fi false s = Some a -> of_function s.
Proof.
  destruct s as [| |cs|k i inner|k i|i inner|i bs|i b o]; intros E; try exact Logic.I.
  - cbn in E. unfold visit_inner in E. cbn [of_function]. revert a E. induction cs as [|c cs IH]; intros a E; constructor; cbn in E;
      destruct (join_some _ _ _ E) as (u & v & E1 & E2 & F).
    + intros K. rewrite K in E1. unfold visit_clause in E1. destruct (fi && negb (kind_eqb KInv KInv)); discriminate.
    + exact (IH v E2).
  - cbn in E. destruct (join_some _ _ _ E) as (u & v & E1 & E2 & F). cbn. intros ->. unfold visit_clause in E1.
    destruct (fi && negb (kind_eqb KInv KInv)); discriminate.
Qed.

Lemma seq1_inv {A B} (g : A -> option B) l r : sequence1 (map g l) = Some r -> Forall (fun x => exists y, g x = Some y) l.
Proof.
  revert r. induction l as [|x l IH]; intros r E; [constructor|]. cbn in E. destruct (g x) as [y|] eqn:G; [|discriminate].
  destruct (sequence1 (map g l)) as [z|]; [|discriminate]. constructor; [exists y; exact G|]. exact (IH z eq_refl).
Qed.
Lemma seq_some {A} (g : stmt -> option (list A)) l r : sequence (map g l) = Some r -> Forall (fun x => exists y, g x = Some y) l.
Proof.
  revert r. induction l as [|x l IH]; intros r E; [constructor|]. cbn in E. destruct (g x) as [y|] eqn:G; [|discriminate].
  destruct (sequence (map g l)) as [z|]; [|discriminate]. constructor; [exists y; exact G|]. exact (IH z eq_refl).
Qed.

Lemma headlike_heading fp fi inl b a s : visit_body fp fi inl b = Some a ->
  (forall k, (k = KInv -> inl = true) -> Forall (fun x => snd x = []) (field k a)) ->
  In s b -> no_calls s -> headlike s = true -> heading s.
Proof.
  intros E P I NC H. unfold heading. destruct s as [| |cs|k i inner|k i|i inner|i bs|i b' o]; try discriminate; eauto.
  - destruct (in_field _ _ _ _ _ _ E I) as (a' & E' & F). pose proof (clause_field _ _ _ _ _ _ _ E') as C. apply F in C.
    assert (K : k = KInv -> inl = true).
    { intros ->. destruct inl; [reflexivity|]. apply visit_of_function in E'. contradiction E'. reflexivity. }
    specialize (P k K). rewrite Forall_forall in P. specialize (P _ C). cbn in P. subst inner.
    right. right. right. exists k, i. reflexivity.
  - contradiction.
Qed.

(** Accepted statements are in place. *)
Theorem translate_clean fp fi s : forall x, no_calls s -> tidy_loops s -> translate fp fi s = Some x -> clean s.
Proof.
  induction s as [| |cs|k' i inner|k' i|i inner|i bs IH|i b o IHb IHo] using stmt_ind'; intros x NC TL E; cbn [translate] in E.
  - constructor.
  - constructor.
  - discriminate.
  - discriminate.
  - constructor.
  - destruct inner; [|discriminate]. constructor.
  - cbn [no_calls tidy_loops] in NC, TL. rewrite alls_Forall in NC, TL.
    destruct (sequence1 _) as [xs|] eqn:S1; [|discriminate]. constructor. apply seq1_inv in S1.
    rewrite Forall_forall in *. intros b I. destruct (S1 b I) as (y & Y). apply seq_some in Y.
    specialize (IH b I). specialize (NC b I). specialize (TL b I). rewrite Forall_forall in *.
    intros s I'. destruct (Y s I') as (z & Z). exact (IH s I' z (NC s I') (TL s I') Z).
  - destruct NC as (NB & NO). rewrite all_Forall in NB, NO. destruct TL as (T1 & TB & TO). rewrite all_Forall in TB, TO.
    destruct fp; [discriminate|]. destruct (join _ _) as [a|] eqn:J; [|discriminate].
    destruct (translate_args (a_inv a)) as [invs|] eqn:TA; [|discriminate].
    destruct (sequence (slice _ _)) as [b'|] eqn:SB; [|discriminate]. destruct (sequence (map _ o)) as [o'|] eqn:SO; [|discriminate].
    clear E. destruct (join_some _ _ _ J) as (u & v & E1 & E2 & F). specialize (F KInv) as FI. cbn [field] in FI.
    apply args_plain in TA. rewrite FI in TA. apply Forall_app in TA. destruct TA as (TA & _).
    rewrite slice_map, body_slice in SB. apply seq_some in SB. apply seq_some in SO.
    destruct (rest_sorted b) as (h & Eb & SH & HH). destruct (strip_split (rest_of b)) as (t & Et & Ft).
    assert (NH : forall s, In s h -> In s b) by (intros s I; rewrite Eb; apply in_or_app; auto).
    assert (NS : forall s, In s (strip (rest_of b)) -> In s b) by (intros s I; apply in_rest, in_strip, I).
    assert (T : t = []).
    { destruct t as [|s t]; [reflexivity|exfalso]. inversion Ft as [|? ? P _]; subst.
      assert (I : In s b) by (rewrite Eb, Et; apply in_or_app; right; apply in_or_app; right; left; reflexivity).
      rewrite Forall_forall in T1, NB. specialize (T1 s I). specialize (NB s I).
      destruct s as [| |cs|[] i' inner|k' i'|i' inner|i' bs|i' b'' o'']; cbn in P; try discriminate; contradiction. }
    subst t. rewrite app_nil_r in Et. rewrite Eb, Et. rewrite Forall_forall in *. apply c_loop.
    + split.
      * apply SH. intros s I. apply NB, NH, I.
      * rewrite Forall_forall. intros s I. assert (IB := NH s I). pose proof (T1 s IB) as TS. pose proof (NB s IB) as NC. specialize (HH s I).
        destruct s as [| |cs|k i' inner|k' i'|i' inner|i' bs|i' b'' o'']; try discriminate; unfold heading; eauto; [|contradiction NC].
        cbn in TS. subst k. destruct (in_field _ _ _ _ _ _ E1 IB) as (a' & E' & FF). pose proof (clause_field _ _ _ _ _ _ _ E') as C.
        apply FF in C. specialize (TA _ C). cbn in TA. subst inner. right. right. right. exists KInv, i'. reflexivity.
    + rewrite Forall_forall. intros s I. apply T1, NH, I.
    + rewrite Forall_forall. intros s I. assert (IB := NS s I). destruct (SB s I) as (z & Z). exact (IHb s IB z (NB s IB) (TB s IB) Z).
    + rewrite Forall_forall. intros s I. destruct (SO s I) as (z & Z). exact (IHo s I z (NO s I) (TO s I) Z).
Qed.

(** * The three claims *)
Lemma verify_inv f c b : verify f = Some (c, b) ->
  exists a, visit_body (pure f) (inline f) false (body f) = Some a /\
    (forall k, k <> KInv -> Forall (fun x => snd x = []) (field k a)) /\
    c = {| requires := names (a_pre a); ensures := names (a_post a); exsures := names (a_exc a); decreases := names (a_dec a) |} /\
    (b = None \/ exists x, b = Some x /\ sequence (map (translate (pure f) (inline f)) (strip (rest_of (body f)))) = Some x).
Proof.
  unfold verify. destruct (visit_body _ _ _ _) as [a|]; [|discriminate].
  destruct (translate_args (a_pre a)) as [pre|] eqn:T1; [|discriminate]. destruct (translate_args (a_post a)) as [post|] eqn:T2; [|discriminate].
  destruct (translate_args (a_exc a)) as [exc|] eqn:T3; [|discriminate]. destruct (translate_args (a_dec a)) as [dec|] eqn:T4; [|discriminate].
  destruct (pure f && _); [discriminate|]. intros E. exists a. split; [reflexivity|]. split; [|split].
  - intros [] N; cbn [field]; try (eapply args_plain; eassumption). contradiction N; reflexivity.
  - apply args_names in T1. apply args_names in T2. apply args_names in T3. apply args_names in T4. subst.
    destruct (contract_only f); [injection E as <- _; reflexivity|]. destruct (sequence _); [|discriminate]. injection E as <- _. reflexivity.
  - destruct (contract_only f); [injection E as _ <-; left; reflexivity|]. rewrite slice_map, body_slice in E.
    destruct (sequence _) as [x|]; [|discriminate]. injection E as _ <-. right. exists x. auto.
Qed.

Theorem nothing_lost f c b : verify f = Some (c, b) -> c = stated f.
Proof.
  intros E. destruct (verify_inv _ _ _ E) as (a & V & _ & -> & _). unfold stated. f_equal.
  - exact (body_names _ _ _ _ _ V KReq).
  - exact (body_names _ _ _ _ _ V KEns).
  - exact (body_names _ _ _ _ _ V KExs).
  - exact (body_names _ _ _ _ _ V KDec).
Qed.
Theorem nothing_skipped f c x : Forall no_calls (body f) -> verify f = Some (c, Some x) -> x = meaning (body f).
Proof.
  intros NC E. destruct (verify_inv _ _ _ E) as (a & V & _ & _ & [? | (x' & X & S)]); [discriminate|]. injection X as <-.
  rewrite <- (strip_meaning (body f) NC). refine (seq_meaning (pure f) (inline f) _ _ _ _ S).
  - apply Forall_forall. intros s _ y. apply translate_meaning.
  - rewrite Forall_forall in *. intros s I. apply NC, in_rest, in_strip, I.
Qed.
Theorem in_place f c x : Forall no_calls (body f) -> Forall tidy_loops (body f) -> verify f = Some (c, Some x) -> well_placed (body f).
Proof.
  intros NC TL E. destruct (verify_inv _ _ _ E) as (a & V & PL & _ & [? | (x' & _ & S)]); [discriminate|].
  destruct (rest_sorted (body f)) as (h & Eb & SH & HH). destruct (strip_split (rest_of (body f))) as (t & Et & Ft).
  assert (NH : forall s, In s h -> In s (body f)) by (intros s I; rewrite Eb; apply in_or_app; auto).
  assert (NS : forall s, In s (strip (rest_of (body f))) -> In s (body f)) by (intros s I; apply in_rest, in_strip, I).
  assert (NT : forall s, In s t -> In s (body f)) by (intros s I; rewrite Eb, Et; apply in_or_app; right; apply in_or_app; auto).
  assert (HD : forall s, In s (body f) -> headlike s = true -> heading s).
  { intros s I. rewrite Forall_forall in NC. refine (headlike_heading _ _ _ _ _ s V _ I (NC s I)).
    intros k K. apply PL. intros ->. discriminate (K eq_refl). }
  exists h, (strip (rest_of (body f))), t. apply seq_some in S. rewrite Forall_forall in *.
  split; [rewrite <- Et; exact Eb|]. split; [split|split; [|split]].
  - apply SH. intros s I. apply NC, NH, I.
  - try rewrite Forall_forall. intros s I. apply HD; [apply NH, I|apply HH, I].
  - try rewrite Forall_forall. intros s I. destruct (in_field _ _ _ _ _ _ V (NH s I)) as (a' & E' & _). exact (visit_of_function _ _ _ _ E').
  - try rewrite Forall_forall. intros s I. destruct (S s I) as (z & Z). exact (translate_clean _ _ s z (NC s (NS s I)) (TL s (NS s I)) Z).
  - try rewrite Forall_forall. intros s I. specialize (Ft s I). pose proof (HD s (NT s I) (post_headlike s Ft)) as H. specialize (NC s (NT s I)).
    destruct H as [-> | [-> | [(cs & ->) | (k & i & ->)]]]; cbn in Ft; try discriminate. destruct k; try discriminate. exists i. reflexivity.
Qed.

(** * Acceptance *)
Lemma pred_rank j p s : nth_error preds j = Some p -> heading s -> (p s = true <-> rank s = j).
Proof.
  intros J H. unfold preds in J.
  do 8 (destruct j as [|j]; [cbn in J; injection J as <-; destruct H as [-> | [-> | [(cs & ->) | (k & i & ->)]]]; try destruct k; cbn; split; intros; try reflexivity; try discriminate|]).
  destruct j; discriminate.
Qed.
Lemma consume main : forall head, in_order head -> exists m, main = m ++ rest_of (head ++ main).
Proof.
  assert (SUF : forall ps l, exists h, l = h ++ fold_left (fun l p => drop_while p l) ps l).
  { induction ps as [|p ps IH]; intros l; [exists []; reflexivity|]. cbn [fold_left]. destruct (drop_split p l) as (m & E & _).
    destruct (IH (drop_while p l)) as (h & E'). exists (m ++ h). rewrite <- app_assoc, <- E'. exact E. }
  assert (G : forall ps n, (forall j p, nth_error ps j = Some p -> nth_error preds (n + j) = Some p) -> forall head,
    StronglySorted le (map rank head) -> Forall heading head -> Forall (fun s => n <= rank s < n + length ps) head ->
    exists m, main = m ++ fold_left (fun l p => drop_while p l) ps (head ++ main)).
  { induction ps as [|p ps IH]; intros n NP head SS HD RK.
    - destruct head as [|s head]; [exists []; reflexivity|]. inversion RK as [|? ? K _]; subst. cbn in K. lia.
    - pose proof (NP 0 p eq_refl) as P0. rewrite Nat.add_0_r in P0.
      assert (NP' : forall j q, nth_error ps j = Some q -> nth_error preds (S n + j) = Some q).
      { intros j q Q. rewrite <- (NP (S j) q Q). f_equal. lia. }
      induction head as [|s head IHh].
      + cbn [app fold_left]. destruct (drop_split p main) as (m & E & _). destruct (SUF ps (drop_while p main)) as (h & E').
        exists (m ++ h). rewrite <- app_assoc, <- E'. exact E.
      + cbn in SS. inversion SS as [|? ? SS1 SS2]; subst. inversion HD as [|? ? HD1 HD2]; subst. inversion RK as [|? ? RK1 RK2]; subst.
        cbn [app fold_left drop_while]. destruct (p s) eqn:PS.
        * destruct (IHh SS1 HD2 RK2) as (m & E). exists m. exact E.
        * assert (N : rank s <> n) by (intros R; apply (pred_rank n p s P0 HD1) in R; congruence).
          refine (IH (S n) NP' (s :: head) _ HD _); [exact SS|].
          rewrite Forall_forall in *. intros s' [<- | I]; cbn [length] in *; [lia|]. specialize (RK2 s' I). cbn in RK2.
          assert (rank s <= rank s') by (apply SS2, in_map, I). lia. }
  intros head (SS & HD). refine (G preds 0 (fun j p H => H) head SS HD _).
  eapply Forall_impl; [|exact HD]. intros s H. cbn.
  destruct H as [-> | [-> | [(cs & ->) | (k & i & ->)]]]; try destruct k; cbn; lia.
Qed.
Lemma strip_main m1 r main tail : main ++ tail = m1 ++ r -> Forall (fun s => is_post s = true) tail -> forall s, In s (strip r) -> In s main.
Proof.
  intros E P s I. apply app_eq_app in E. destruct E as (l & [(E1 & E2) | (E1 & E2)]).
  - (* main = m1 ++ l, r = l ++ tail *)
    subst r main. unfold strip in I. rewrite rev_app_distr in I.
    assert (D : forall t l, Forall (fun s => is_post s = true) t -> drop_while is_post (t ++ l) = drop_while is_post l).
    { clear. intros t l. induction 1 as [|x t H _ IH]; cbn; [reflexivity|]. rewrite H. exact IH. }
    rewrite D in I by (apply Forall_rev, P). apply in_or_app. right. exact (in_strip l s I).
  - subst tail. apply Forall_app in P. destruct P as (_ & P). unfold strip in I. rewrite drop_all in I; [contradiction|].
    apply forallb_forall. intros x X. apply in_rev in X. rewrite Forall_forall in P. exact (P x X).
Qed.
Lemma slice_main head main tail s : in_order head -> Forall (fun s => is_post s = true) tail ->
  In s (strip (rest_of (head ++ main ++ tail))) -> In s main.
Proof.
  intros IO P I. destruct (consume (main ++ tail) head IO) as (m & E). exact (strip_main m _ main tail E P s I).
Qed.

Definition plain (a : acc) : Prop := forall k, Forall (fun x => snd x = []) (field k a).
Lemma join_plain x y : (exists a, x = Some a /\ plain a) -> (exists a, y = Some a /\ plain a) -> exists a, join x y = Some a /\ plain a.
Proof.
  intros (a & -> & A) (b & -> & B). eexists. split; [reflexivity|]. intros k. specialize (A k). specialize (B k).
  destruct k; cbn [field a_pre a_post a_exc a_dec a_inv] in *; apply Forall_app; split; assumption.
Qed.
Lemma join_all_plain l : Forall (fun x => exists a, x = Some a /\ plain a) l -> exists a, join_all l = Some a /\ plain a.
Proof.
  induction 1 as [|x l H _ IH]; cbn.
  - exists none. split; [reflexivity|]. intros []; constructor.
  - apply join_plain; assumption.
Qed.
Lemma clause_plain fp fi inl k i : (k = KInv -> inl = true) -> (fi = true -> k = KInv) -> (k = KDec -> fp = true) ->
  exists a, visit_clause fp fi inl k (i, []) = Some a /\ plain a.
Proof.
  intros A B C. unfold visit_clause.
  assert (F : fi && negb (kind_eqb k KInv) = false) by (destruct fi; [rewrite (B eq_refl); reflexivity|reflexivity]).
  rewrite F. destruct k; try rewrite (A eq_refl); try rewrite (C eq_refl); eexists; (split; [reflexivity|]); intros []; repeat constructor.
Qed.
Definition fits fp fi inl k := (k = KInv -> inl = true) /\ (fi = true -> k = KInv) /\ (k = KDec -> fp = true).
Lemma heading_visit fp fi inl s : heading s ->
  (forall k i, s = Clause k i [] -> fits fp fi inl k) -> (forall cs c, s = Exists cs -> In c cs -> fits fp fi inl (fst c)) ->
  exists a, visit fp fi inl s = Some a /\ plain a.
Proof.
  assert (NP : plain none) by (intros []; constructor).
  intros [-> | [-> | [(cs & ->) | (k & i & ->)]]] A B; cbn [visit].
  - exists none. auto.
  - exists none. auto.
  - unfold visit_inner. apply join_all_plain. apply Forall_forall. intros x X. apply in_map_iff in X. destruct X as (c & <- & I).
    destruct (B cs c eq_refl I) as (B1 & B2 & B3). apply clause_plain; assumption.
  - destruct (A k i eq_refl) as (A1 & A2 & A3). apply join_plain; [apply clause_plain; assumption|]. exists none. auto.
Qed.
Lemma of_loop_visit fp fi s : heading s -> of_loop s -> exists a, visit fp fi true s = Some a /\ plain a.
Proof.
  intros H O. apply heading_visit; [exact H| |].
  - intros k i ->. cbn in O. subst k. repeat split; intros; try reflexivity; discriminate.
  - intros cs c -> I. cbn in O. rewrite Forall_forall in O. rewrite (O c I). repeat split; intros; try reflexivity; discriminate.
Qed.
Lemma clean_visit fp fi s : forall inl, clean s -> exists a, visit fp fi inl s = Some a /\ plain a.
Proof.
  assert (NP : plain none) by (intros []; constructor).
  induction s as [| |cs|k' i inner|k' i|i inner|i bs IH|i b o IHb IHo] using stmt_ind'; intros inl C; inversion C; subst; cbn [visit].
  - exists none. auto.
  - exists none. auto.
  - exists none. auto.
  - exists none. auto.
  - apply join_all_plain. apply Forall_forall. intros x X. apply in_map_iff in X. destruct X as (b & <- & I).
    apply join_all_plain. apply Forall_forall. intros x X. apply in_map_iff in X. destruct X as (s & <- & I').
    rewrite Forall_forall in *. specialize (IH b I). specialize (H0 b I). rewrite Forall_forall in *. apply IH; [exact I'|]. apply H0, I'.
  - destruct (join_plain (join_all (map (visit fp fi true) (head ++ main))) (join_all (map (visit fp fi true) o))) as (a & J & PL).
    + apply join_all_plain. apply Forall_forall. intros x X. apply in_map_iff in X. destruct X as (s & <- & I).
      rewrite Forall_forall in *. apply in_app_or in I. destruct I as [I|I].
      * apply of_loop_visit; [|apply H3, I]. destruct H2 as (_ & H2). rewrite Forall_forall in H2. apply H2, I.
      * apply IHb; [apply in_or_app; auto|]. apply H4, I.
    + apply join_all_plain. apply Forall_forall. intros x X. apply in_map_iff in X. destruct X as (s & <- & I).
      rewrite Forall_forall in *. apply IHo; [exact I|]. apply H5, I.
    + rewrite J. eexists. split; [reflexivity|]. intros k. specialize (PL k). destruct k; cbn [field a_pre a_post a_exc a_dec a_inv] in *; try assumption. constructor.
Qed.

Lemma seq_exists {A} (g : stmt -> option (list A)) l : Forall (fun s => exists x, g s = Some x) l -> exists r, sequence (map g l) = Some r.
Proof.
  induction 1 as [|s l (x & E) _ (r & IH)]; [exists []; reflexivity|]. cbn. rewrite E, IH. eexists. reflexivity.
Qed.
Lemma seq1_exists {A B} (g : A -> option B) l : Forall (fun s => exists x, g s = Some x) l -> exists r, sequence1 (map g l) = Some r.
Proof.
  induction 1 as [|s l (x & E) _ (r & IH)]; [exists []; reflexivity|]. cbn. rewrite E, IH. eexists. reflexivity.
Qed.
Lemma clean_translate fp fi s : clean s -> no_calls s -> (fp = true -> no_loops s) -> exists x, translate fp fi s = Some x.
Proof.
  induction s as [| |cs|k' i inner|k' i|i inner|i bs IH|i b o IHb IHo] using stmt_ind'; intros C NC NL; inversion C; subst; cbn [translate].
  - eexists. reflexivity.
  - destruct fp; [contradiction (NL eq_refl)|]. eexists. reflexivity.
  - contradiction.
  - eexists. reflexivity.
  - cbn [no_calls] in NC. rewrite alls_Forall in NC.
    assert (NL' : fp = true -> Forall (Forall no_loops) bs) by (intros F; specialize (NL F); cbn [no_loops] in NL; rewrite alls_Forall in NL; exact NL).
    clear NL. destruct (seq1_exists (fun b => sequence (map (translate fp fi) b)) bs) as (r & R); [|rewrite R; eexists; reflexivity].
    apply Forall_forall. intros b I. apply seq_exists. apply Forall_forall. intros s I'.
    rewrite Forall_forall in IH, H0, NC. specialize (IH b I). specialize (H0 b I). specialize (NC b I).
    rewrite Forall_forall in IH, H0, NC. apply IH; auto.
    intros F. specialize (NL' F). rewrite Forall_forall in NL'. specialize (NL' b I). rewrite Forall_forall in NL'. auto.
  - destruct NC as (NB & NO). rewrite all_Forall in NB, NO. destruct fp; [contradiction (NL eq_refl)|].
    destruct (join_plain (visit_body false fi true (head ++ main)) (visit_body false fi true o)) as (a & J & PL).
    + apply join_all_plain. apply Forall_forall. intros x X. apply in_map_iff in X. destruct X as (s & <- & I).
      rewrite Forall_forall in *. apply in_app_or in I. destruct I as [I|I].
      * apply of_loop_visit; [|apply H3, I]. destruct H2 as (_ & H2). rewrite Forall_forall in H2. apply H2, I.
      * apply clean_visit. apply H4, I.
    + apply join_all_plain. apply Forall_forall. intros x X. apply in_map_iff in X. destruct X as (s & <- & I).
      rewrite Forall_forall in *. apply clean_visit. apply H5, I.
    + rewrite J. change (a_inv a) with (field KInv a). rewrite (args_ok _ (PL KInv)), slice_map, body_slice.
      destruct (seq_exists (translate false fi) (strip (rest_of (head ++ main)))) as (r & R).
      { apply Forall_forall. intros s I. rewrite <- (app_nil_r main) in I. apply slice_main in I; [|exact H2|constructor].
        rewrite Forall_forall in *. apply IHb; [apply in_or_app; auto|apply H4, I|apply NB, in_or_app; auto|discriminate]. }
      destruct (seq_exists (translate false fi) o) as (r' & R').
      { apply Forall_forall. intros s I. rewrite Forall_forall in *. apply IHo; auto. discriminate. }
      rewrite R, R'. eexists. reflexivity.
Qed.

Lemma says_clause b k i : In (Clause k i []) b -> In i (says k b).
Proof.
  intros I. unfold says. apply in_concat. exists (said k (Clause k i [])). split; [apply in_map; exact I|].
  cbn. unfold pick. cbn. destruct k; left; reflexivity.
Qed.
Lemma says_exists b cs c : In (Exists cs) b -> In c cs -> In (snd c) (says (fst c) b).
Proof.
  intros I J. unfold says. apply in_concat. exists (said (fst c) (Exists cs)). split; [apply in_map; exact I|].
  cbn. unfold pick. apply in_map_iff. exists c. split; [reflexivity|]. apply filter_In. split; [exact J|]. destruct (fst c); reflexivity.
Qed.

Theorem accepts f : well_placed (body f) -> Forall no_calls (body f) ->
  (inline f = true -> forall k, k <> KInv -> says k (body f) = []) ->
  (pure f = false -> says KDec (body f) = []) ->
  (pure f = true -> says KExs (body f) = [] /\ Forall no_loops (body f)) ->
  verify f = Some (stated f, if contract_only f then None else Some (meaning (body f))).
Proof.
  intros (head & main & tail & Eb & IO & OF & CM & TL) NC IN DE PU.
  assert (TP : Forall (fun s => is_post s = true) tail).
  { eapply Forall_impl; [|exact TL]. intros s (i & ->). reflexivity. }
  assert (FIT : forall k i, In i (says k (body f)) -> k <> KInv -> fits (pure f) (inline f) false k).
  { intros k i I N. split; [contradiction|]. split.
    - intros F. rewrite (IN F k N) in I. contradiction.
    - intros ->. destruct (pure f); [reflexivity|]. rewrite (DE eq_refl) in I. contradiction. }
  destruct (join_all_plain (map (visit (pure f) (inline f) false) (body f))) as (a & V & PL).
  { apply Forall_forall. intros x X. apply in_map_iff in X. destruct X as (s & <- & I). pose proof I as I0. rewrite Eb in I.
    apply in_app_or in I. destruct I as [I|I]; [|apply in_app_or in I; destruct I as [I|I]]; rewrite Forall_forall in *.
    - destruct IO as (_ & HD). rewrite Forall_forall in HD. specialize (HD s I). specialize (OF s I). apply heading_visit; [exact HD| |].
      + intros k i ->. apply FIT with i; [apply says_clause; exact I0|exact OF].
      + intros cs c -> J. cbn in OF. rewrite Forall_forall in OF. apply FIT with (snd c); [apply says_exists with cs; assumption|apply OF, J].
    - apply clean_visit. apply CM, I.
    - destruct (TL s I) as (i & ->). apply heading_visit; [right; right; right; exists KEns, i; reflexivity| |].
      + intros k i' [= <- <-]. apply FIT with i; [apply says_clause; exact I0|discriminate].
      + discriminate. }
  fold (visit_body (pure f) (inline f) false (body f)) in V.
  pose proof (body_names _ _ _ _ _ V) as NM.
  unfold verify. rewrite V. change (a_pre a) with (field KReq a). change (a_post a) with (field KEns a).
  change (a_exc a) with (field KExs a). change (a_dec a) with (field KDec a). rewrite (args_ok _ (PL KReq)), (args_ok _ (PL KEns)), (args_ok _ (PL KExs)), (args_ok _ (PL KDec)).
  assert (ST : {| requires := names (field KReq a); ensures := names (field KEns a); exsures := names (field KExs a); decreases := names (field KDec a) |} = stated f)
    by (rewrite !NM; reflexivity).
  replace (pure f && negb match names (field KExs a) with [] => true | _ => false end) with false.
  2: { destruct (pure f) eqn:P; [|reflexivity]. destruct (PU eq_refl) as (X & _). rewrite NM, X. reflexivity. }
  rewrite ST. destruct (contract_only f); [reflexivity|]. rewrite slice_map, body_slice.
  destruct (seq_exists (translate (pure f) (inline f)) (strip (rest_of (body f)))) as (r & R).
  { apply Forall_forall. intros s I. assert (IB : In s (body f)) by (apply in_rest, in_strip, I). rewrite Eb in I. apply slice_main in I; [|exact IO|exact TP].
    rewrite Forall_forall in CM, NC. apply clean_translate; [apply CM, I|apply NC, IB|].
    intros P. destruct (PU P) as (_ & NL). rewrite Forall_forall in NL. apply NL, IB. }
  rewrite R. f_equal. f_equal. f_equal. rewrite <- (strip_meaning (body f) NC).
  refine (seq_meaning (pure f) (inline f) _ _ _ _ R).
  - apply Forall_forall. intros s _ y. apply translate_meaning.
  - rewrite Forall_forall in *. intros s I. apply NC, in_rest, in_strip, I.
Qed.
