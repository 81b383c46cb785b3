(** Proofs about wait levels. *)
From Coq Require Import NArith ZArith QArith List Permutation Bool Lqa.
From Verif Require Import WaitModel WaitSpec.
Import ListNotations.
Open Scope Q_scope.

(** * Rational bounds *)
Lemma max_ex (r : Q) (F : list ref) : exists r', r <= r' /\ Forall (fun h => Level h <= r') F /\
  (r' <= r \/ Exists (fun h => r' <= Level h) F).
Proof.
  induction F as [|f F (r' & A & B & D)].
  - exists r. repeat split; auto; [lra|left; lra].
  - destruct (Qlt_le_dec (Level f) r') as [L|L].
    + exists r'. repeat split; auto. constructor; auto. lra. destruct D; auto.
    + exists (Level f). repeat split; [lra| |right; left; lra].
      constructor; [lra|]. eapply Forall_impl; [|exact B]. intros h ?. cbv beta in *. lra.
Qed.
Lemma max_lt r F r' x : (r' <= r \/ Exists (fun h => r' <= Level h) F) -> r < x -> Forall (fun h => Level h < x) F -> r' < x.
Proof.
  intros [D|D] R G; [lra|]. apply Exists_exists in D as (h & I & D).
  rewrite Forall_forall in G. specialize (G h I). cbv beta in *. lra.
Qed.
Lemma between_ex (r : Q) (X : list ref) : Forall (fun x => r < Level x) X -> exists q, r < q /\ Forall (fun x => q < Level x) X.
Proof.
  induction 1 as [|x X Hx _ (q & A & B)].
  - exists (r + 1). split; auto. lra.
  - destruct (Qlt_le_dec q (Level x)) as [L|L].
    + exists q. split; auto.
    + exists ((r + Level x) / 2). assert (E : (r + Level x) / 2 == (1#2) * r + (1#2) * Level x) by field.
      split; [lra|]. constructor; [lra|]. eapply Forall_impl; [|exact B]. intros y ?. cbv beta in *. lra.
Qed.
Lemma below_ex (X : list ref) (q : Q) : exists b, b < q /\ Forall (fun x => b < Level x) X.
Proof.
  induction X as [|x X (b & A & B)].
  - exists (q - 1). split; auto. lra.
  - destruct (Qlt_le_dec b (Level x)) as [L|L].
    + exists b. auto.
    + exists (Level x - 1). split; [lra|]. constructor; [lra|]. eapply Forall_impl; [|exact B]. intros y ?. cbv beta in *. lra.
Qed.
Lemma Forall_perm {A} (Pr : A -> Prop) l l' : Permutation l l' -> Forall Pr l -> Forall Pr l'.
Proof. intros E F. rewrite Forall_forall in *. intros x I. apply F. eapply Permutation_in; [symmetry; exact E|exact I]. Qed.

Definition ref_dec (a b : ref) : {a = b} + {a <> b}.
Proof. repeat decide equality. Defined.

Section Soundness.
  Variable C : config.
  Variable P : prog.
  Hypothesis HV : verified C P.

  Definition tok (t : ref) : list ref := if start_checks_waits C then [t] else [].
  Lemma bounds_tok t o : bounds C t o = tok t ++ o.
  Proof. unfold bounds, tok. destruct (start_checks_waits C); reflexivity. Qed.

  Section Thread.
    Variable B : Q.
    Variable t : ref.

    Definition res_ok (r : Q) (Fr : list ref) : Prop :=
      Forall (fun h => Level h <= r) (tok t ++ Fr) /\
      (r <= B \/ Exists (fun h => r <= Level h) (tok t ++ Fr)).

    Inductive okK : list kont -> Q -> Q -> list ref -> (store -> list ref -> Prop) -> Prop :=
    | ok_nil rm r (Q : store -> list ref -> Prop) : (forall s H, Q s H -> H = []) -> okK [] rm r [] Q
    | ok_seq c K rm r Fr (Q Q' : store -> list ref -> Prop) : okK K rm r Fr Q' ->
        (forall s H, Q s H -> check C P rm r c Q' s H) -> okK (KSeq c :: K) rm r Fr Q
    | ok_loop b va inv c K s1 rm r L F Fr (Q Q' : store -> list ref -> Prop) :
        okK K rm r Fr Q' -> res_ok r Fr -> rm <= r ->
        initialize_current_wait_level L r F ->
        (forall s H, Q s H -> agree va s1 s /\ pure inv s /\ Permutation H (locks inv s) /\ Forall (fun x => L < Level x) (waits inv s)) ->
        (forall s' loop_residue, agree va s1 s' -> pure inv s' -> b s' = false ->
              initialize_current_wait_level loop_residue r F ->
              Forall (fun x => r < Level x) (waits inv s') ->
              Q' s' (locks inv s' ++ F)) ->
        (forall s' loop_residue, agree va s1 s' -> pure inv s' -> b s' = true ->
           initialize_current_wait_level loop_residue r [] ->
           Forall (fun x => loop_residue < Level x) (waits inv s') ->
           check C P rm loop_residue c (fun s'' held'' =>
             agree va s' s'' /\ pure inv s'' /\
             exists rest, Permutation held'' (locks inv s'' ++ rest) /\
               Forall (create_level_below loop_residue rest) (waits inv s'') /\ rest = [])
             s' (locks inv s')) ->
        okK (KLoop b va inv c :: K) rm L (F ++ Fr) Q
    | ok_ret me a ret s0 K rm r rm' r' F Fr (Q Q' : store -> list ref -> Prop) :
        okK K rm r Fr Q' -> res_ok r Fr -> rm <= r ->
        (forall s H, Q s H -> exists H', Permutation (H ++ F) H' /\ Q' (ret (m_ret me s) s0) H') ->
        okK (KRet me a ret s0 :: K) rm' r' (F ++ Fr) Q.

    Definition okT (c : cmd) (s : store) (K : list kont) (o : list ref) : Prop :=
      exists H Fr rm r Q, okK K rm r Fr Q /\ res_ok r Fr /\ rm <= r /\
        Permutation o (H ++ Fr) /\ check C P rm r c Q s H.

    Lemma below_nil r X : Forall (fun x => r < Level x) X -> Forall (create_level_below r []) X.
    Proof. apply Forall_impl. intros x ?. split; auto. Qed.
    Lemma below_res r F X : Forall (create_level_below r F) X -> Forall (fun x => r < Level x) X.
    Proof. apply Forall_impl. intros x [_ ?]. assumption. Qed.

    (* the residue of a callee or loop *)
    Lemma residue_ex r Fr F : res_ok r Fr -> exists r', r <= r' /\ Forall (fun h => Level h <= r') F /\ res_ok r' (F ++ Fr) /\
      forall x, create_level_below r F x -> r' < Level x.
    Proof.
      intros (R1 & R2). destruct (max_ex r F) as (r' & A & D & E). exists r'. split; [exact A|]. split; [exact D|]. split.
      - split.
        + rewrite Forall_app in R1. destruct R1 as (T & G).
          rewrite !Forall_app. repeat split; auto; eapply Forall_impl; try eassumption; intros h ?; cbv beta in *; lra.
        + destruct E as [E|E].
          * destruct R2 as [R2|R2]; [left; lra|]. right. rewrite Exists_app in R2. rewrite !Exists_app.
            destruct R2 as [R2|R2]; [left|right; right]; (eapply Exists_impl; [|exact R2]; intros h ?; cbv beta in *; lra).
          * right. rewrite !Exists_app. auto.
      - intros x (X1 & X2). eapply max_lt; eassumption.
    Qed.

    Lemma okT_local c s K c' s' K' o : okT c s K o -> local P (c, s, K) (c', s', K') -> okT c' s' K' o.
    Proof.
      intros (H & Fr & rm & r & Q & OK & R & RM & PM & CH) L. inversion L; subst; clear L.
      - exists H, Fr, rm, r, Q. repeat split; auto; try apply R; try apply CH.
      - exists H, Fr, rm, r, (check C P rm r c2 Q). repeat split; auto; try apply R. econstructor; eauto.
      - inversion OK; subst. exists H, Fr, rm, r, Q'. repeat split; auto; try apply R; auto.
      - exists H, Fr, rm, r, Q. repeat split; auto; try apply R. cbn in CH. destruct (b s'); exact CH.
      - destruct CH as ((PU & F & PF & W & AF) & BD).
        destruct (residue_ex r Fr F R) as (L & A & D & R' & X).
        assert (WL : Forall (fun x => L < Level x) (waits inv s')) by (eapply Forall_impl; [|exact W]; exact X).
        exists (locks inv s'), (F ++ Fr), rm, L. eexists. split; [|split; [exact R'|split; [lra|split]]].
        3: { apply (BD s' L (fun _ _ => eq_refl) PU H1); [split; auto|exact WL]. }
        2: { rewrite app_assoc. etransitivity; [exact PM|]. apply Permutation_app_tail. exact PF. }
        eapply ok_loop; [exact OK|exact R|exact RM|split; assumption| |exact AF|exact BD].
        intros s'' H'' (AG & PU' & rest & PR & W' & ->). rewrite app_nil_r in PR. repeat split; auto. eapply below_res; exact W'.
      - destruct CH as ((PU & F & PF & W & AF) & BD).
        destruct (residue_ex r Fr F R) as (L & A & D & R' & X).
        exists (locks inv s' ++ F), Fr, rm, r, Q. repeat split; auto; try apply R.
        + etransitivity; [exact PM|]. apply Permutation_app_tail. exact PF.
        + eapply AF; eauto; [intros ? ?; reflexivity|split; eassumption|eapply below_res; exact W].
      - inversion OK; subst.
        match goal with h : forall s H, Q s H -> agree va s1 s /\ _ |- _ => destruct (h _ _ CH) as (AG & PU & PH & W) end.
        assert (TR : forall s2, agree va s' s2 -> agree va s1 s2) by (intros s2 A2 i NI; rewrite (AG i NI); auto).
        exists (H ++ F), Fr0, rm, r0, Q'. split; [assumption|split; [assumption|split; [assumption|split]]].
        + rewrite <- app_assoc. exact PM.
        + split; [|intros; eauto]. split; [exact PU|]. exists F. split; [apply Permutation_app_tail; exact PH|]. split.
          * eapply Forall_impl; [|exact W]. intros x ?. cbv beta in *.
            match goal with h : initialize_current_wait_level _ _ _ |- _ => destruct h as (I1 & I2) end.
            split; [|lra]. eapply Forall_impl; [|exact I1]. intros h ?. cbv beta in *. lra.
          * intros; eauto.
      - cbn in CH. rewrite H1 in CH. destruct CH as (PU & F & PF & W & AF).
        destruct (residue_ex r Fr F R) as (L & A & D & R' & X).
        assert (WL : Forall (fun x => L < Level x) (waits (m_pre me) (args s))) by (eapply Forall_impl; [|exact W]; exact X).
        exists (locks (m_pre me) (args s)), (F ++ Fr), L, L. eexists. split; [|split; [exact R'|split; [lra|split]]].
        3: { apply (HV _ _ H1 (args s) L PU WL). }
        2: { rewrite app_assoc. etransitivity; [exact PM|]. apply Permutation_app_tail. exact PF. }
        eapply ok_ret; [exact OK|exact R|exact RM|].
        intros s'' H'' (PU' & rest & PR & -> & W'). rewrite app_nil_r in PR.
        eexists. split; [|eapply (AF _ L); [split; assumption|exact PU'|eapply below_res; exact W']].
        apply Permutation_app_tail. exact PR.
      - inversion OK; subst.
        match goal with h : forall s H, Q s H -> exists H', _ |- _ => destruct (h _ _ CH) as (H' & PH & QH) end.
        exists H', Fr0, rm0, r0, Q'. split; [assumption|split; [assumption|split; [assumption|split; [|exact QH]]]].
        rewrite PM, app_assoc. apply Permutation_app_tail. exact PH.
    Qed.
  End Thread.

  Definition jok (c : cmd) : Prop :=
    (start_checks_waits C = true /\ join_uses_loop_residue C = true) \/ join_free c.
  Definition jokk (k : kont) : Prop := match k with KSeq c | KLoop _ _ _ c => jok c | KRet _ _ _ _ => True end.
  Hypothesis HJ : forall m me, nth_error P m = Some me -> jok (m_body me).

  Definition okt (B : Q) (t : thread) : Prop :=
    okT B (tid t) (cur t) (sto t) (kon t) (own t) /\ jok (cur t) /\ Forall jokk (kon t).
  Definition Inv (B : Q) (st : state) : Prop := Forall (okt B) (threads st).

  Lemma jok_seq c1 c2 : jok (Seq c1 c2) -> jok c1 /\ jok c2.
  Proof. intros [?|(? & ?)]; split; unfold jok; auto. Qed.
  Lemma jok_if b c1 c2 : jok (If b c1 c2) -> jok c1 /\ jok c2.
  Proof. intros [?|(? & ?)]; split; unfold jok; auto. Qed.
  Lemma jok_while b va i c : jok (While b va i c) -> jok c.
  Proof. intros [?|?]; unfold jok; auto. Qed.
  Lemma jok_skip : jok Skip. Proof. right. exact Logic.I. Qed.

  Lemma jok_local c s K c' s' K' : local P (c, s, K) (c', s', K') -> jok c -> Forall jokk K -> jok c' /\ Forall jokk K'.
  Proof.
    intros L J F. inversion L; subst; try (split; [apply jok_skip|assumption]).
    - apply jok_seq in J as (? & ?). split; [auto|constructor; auto].
    - inversion F; subst. split; auto.
    - apply jok_if in J as (? & ?). split; auto. destruct (b s'); auto.
    - pose proof (jok_while _ _ _ _ J). split; [auto|constructor; auto].
    - inversion F; subst. split; auto.
    - split; [eapply HJ; eassumption|]. constructor; cbn; auto.
    - inversion F; subst. split; auto using jok_skip.
  Qed.

  Lemma Forall_replace {A} (Pr : A -> Prop) l x y r : Forall Pr (l ++ x :: r) -> (Pr x -> Pr y) -> Forall Pr (l ++ y :: r).
  Proof. rewrite !Forall_app, !Forall_cons_iff. intuition. Qed.

  Lemma tight_lt B t r Fr x : res_ok B t r Fr -> B < x -> Forall (fun h => Level h < x) (tok t ++ Fr) -> r < x.
  Proof. intros (_ & E) L F. destruct E as [E|E]; [lra|]. eapply max_lt; [right; exact E| |exact F]. exact L. Qed.

  Lemma inv_step st st' : step C P st st' -> exists b, forall B, B < b -> Inv B st -> Inv B st'.
  Proof.
    intros S. inversion S; subst; clear S; unfold Inv; cbn [threads].
    - exists 0. intros B0 _ I. eapply Forall_replace; [exact I|]. intros (O & J & K1). cbn in *.
      destruct (jok_local _ _ _ _ _ _ H J K1). split; [|split; auto]. cbn. eapply okT_local; eassumption.
    - exists 0. intros B0 _ I. eapply Forall_replace; [exact I|]. intros (O & J & K1). cbn in *.
      split; [|split; auto using jok_skip]. cbn.
      destruct O as (H0 & Fr & rm & r & Q & OK & R & RM & PM & (_ & F & PF & W & AF)). cbn in *.
      destruct (residue_ex B0 t r Fr F R) as (c & A1 & D1 & _ & _).
      exists (l s :: F), Fr, rm, r, Q. split; [exact OK|split; [exact R|split; [exact RM|split]]].
      + cbn. constructor. rewrite PM. apply Permutation_app_tail. exact PF.
      + eapply (AF VNone c); cbn; auto. split; auto.
    - exists 0. intros B0 _ I. eapply Forall_replace; [exact I|]. intros (O & J & K1). cbn in *.
      split; [|split; auto using jok_skip]. cbn.
      destruct O as (H0 & Fr & rm & r & Q & OK & R & RM & PM & (_ & F & PF & W & AF)). cbn in *.
      destruct (residue_ex B0 t r Fr F R) as (c & A1 & D1 & _ & _).
      exists F, Fr, rm, r, Q. split; [exact OK|split; [exact R|split; [exact RM|split]]].
      + rewrite H in PM. rewrite PF in PM. cbn in PM. apply Permutation_cons_inv in PM. exact PM.
      + eapply (AF VNone c); cbn; auto. split; auto.
    - exists q. intros B0 HB I. eapply Forall_replace; [exact I|]. intros (O & J & K1). cbn in *.
      split; [|split; auto using jok_skip]. cbn.
      destruct O as (H0 & Fr & rm & r & Q & OK & R & RM & PM & (PU & F & PF & W & AF)). cbn in *.
      destruct (residue_ex B0 t r Fr F R) as (c & A1 & D1 & R' & _).
      exists F, Fr, rm, r, Q. split; [exact OK|split; [exact R|split; [exact RM|split]]].
      + rewrite PM. apply Permutation_app_tail. exact PF.
      + destruct H as (N1 & N2).
        eapply (AF (VRef (n, q)) c); [split; auto| |].
        * cbn. destruct (above s), (below s); cbn in *; auto.
        * cbn. destruct (above s); cbn in *; auto. constructor; [|constructor]. cbn.
          eapply tight_lt; [exact R'|exact HB|]. rewrite bounds_tok in N1.
          eapply Forall_perm; [|exact N1]. apply Permutation_app_head. rewrite PM. apply Permutation_app_tail. exact PF.
    - destruct (below_ex (waits (m_pre me) (args s)) q) as (b & B1 & B2). exists b. intros B0 HB I.
      assert (I0 := I). rewrite Forall_app, Forall_cons_iff in I0. destruct I0 as (_ & (O & J & K1) & _). cbn in O, J, K1.
      destruct O as (H3 & Fr & rm & r & Q & OK & R & RM & PM & CH). cbn in CH. rewrite H in CH.
      destruct CH as (PO & PU & F & PF & CW & AF).
      assert (EO : Permutation o' (F ++ Fr)).
      { rewrite PF in PM. rewrite PM in H0. rewrite <- app_assoc in H0. apply Permutation_app_inv_l in H0. symmetry. exact H0. }
      rewrite Forall_app. split.
      + eapply Forall_replace; [exact I|]. intros _. split; [|split; auto using jok_skip]. cbn.
        exists F, Fr, rm, r, Q. split; [exact OK|split; [exact R|split; [exact RM|split; [exact EO|]]]].
        cbn. apply AF. rewrite bounds_tok in H1.
        assert (G : Forall (fun h => Level h < q) (tok t ++ F ++ Fr)).
        { eapply Forall_perm; [|exact H1]. apply Permutation_app_head. exact EO. }
        assert (RQ : r < q).
        { eapply tight_lt; [exact R|lra|]. rewrite !Forall_app in *. tauto. }
        split; [|cbn; lra]. rewrite !Forall_app in G. apply G.
      + constructor; [|constructor]. split; [|split; [eapply HJ; exact H|constructor]]. cbn.
        pose (r0 := if start_checks_waits C then q else B0).
        exists (locks (m_pre me) (args s)), [], r0, r0. eexists. split; [|split; [|split; [lra|split]]].
        4: { apply (HV _ _ H (args s) r0 PU). unfold r0. destruct (start_checks_waits C); [exact H2|].
             eapply Forall_impl; [|exact B2]. intros x ?. cbv beta in *. lra. }
        3: rewrite app_nil_r; reflexivity.
        * constructor. intros s0 H4 (_ & rest & PR & -> & _). rewrite PO in PR. cbn in PR. apply Permutation_nil. symmetry. exact PR.
        * unfold r0, res_ok, tok. destruct (start_checks_waits C); cbn.
          -- split; [constructor; auto; cbn; lra|]. right. left. cbn. lra.
          -- split; auto. left. lra.
    - exists 0. intros B0 _ I. eapply Forall_replace; [exact I|]. intros (O & J & K1). cbn in *.
      split; [|split; auto using jok_skip]. cbn.
      destruct O as (H0 & Fr & rm & r & Q & OK & R & RM & PM & (_ & AF)).
      exists H0, Fr, rm, r, Q. repeat split; auto; apply R.
  Qed.

  Lemma inv_initial st : initial P st -> exists b, forall B, B < b -> Inv B st.
  Proof.
    intros (m & me & a & q & N & PU & LK & PO & W & ->).
    exists q. intros B0 HB. constructor; [|constructor].
    split; [|split; [eapply HJ; exact N|constructor]]. cbn.
    pose (r0 := if start_checks_waits C then q else B0).
    exists (locks (m_pre me) a), [], r0, r0. eexists. split; [|split; [|split; [lra|split]]].
    4: { apply (HV _ _ N a r0 PU). unfold r0. destruct (start_checks_waits C); [exact W|].
         eapply Forall_impl; [|exact W]. intros x ?. cbv beta in *. lra. }
    3: rewrite LK; reflexivity.
    - constructor. intros s0 H4 (_ & rest & PR & -> & _). rewrite PO in PR. cbn in PR. apply Permutation_nil. symmetry. exact PR.
    - unfold r0, res_ok, tok. destruct (start_checks_waits C); cbn.
      + split; [constructor; auto; cbn; lra|]. right. left. cbn. lra.
      + split; auto. left. lra.
  Qed.
  Lemma inv_reach st0 st : initial P st0 -> steps C P st0 st -> exists B, Inv B st.
  Proof.
    intros I S. cut (exists b, forall B, B < b -> Inv B st).
    { intros (b & H). exists (b - 1). apply H. lra. }
    induction S as [st|st st' st'' _ IH T]; [apply inv_initial; exact I|].
    destruct (IH I) as (b & H). destruct (inv_step _ _ T) as (b' & H').
    destruct (Qlt_le_dec b b'); [exists b|exists b']; intros B0 L; apply H'; try lra; apply H; lra.
  Qed.

  (** * Deadlocks *)
  Definition awaited (t : thread) : Q :=
    match cur t with Acquire l => Level (l (sto t)) | Join j => Level (j (sto t)) | _ => 0 end.

  Lemma waiting_above B t t' : okt B t -> waits_for t t' -> Forall (fun h => Level h < awaited t) (bounds C (tid t) (own t)).
  Proof.
    intros (O & J & _) W. destruct O as (H & Fr & rm & r & Q & OK & R & RM & PM & CH). unfold awaited.
    assert (G : forall x, create_level_below r H x -> Forall (fun h => Level h < Level x) (bounds C (tid t) (own t))).
    { intros x (X1 & X2). rewrite bounds_tok. destruct R as (R & _). rewrite Forall_app in R. destruct R as (R1 & R2).
      rewrite Forall_app. split; [eapply Forall_impl; [|exact R1]; intros h ?; cbv beta in *; lra|].
      eapply Forall_perm; [symmetry; exact PM|]. rewrite Forall_app. split; auto.
      eapply Forall_impl; [|exact R2]; intros h ?; cbv beta in *; lra. }
    destruct W as [(l & E & _)|(j & E & _)]; rewrite E in *.
    - apply G. destruct CH as (_ & F & PF & W & _). cbn in *. inversion W as [|? ? (X1 & X2) _]; subst.
      split; auto. eapply Forall_perm; [symmetry; exact PF|exact X1].
    - apply G. destruct J as [(_ & E2)|[]]. cbn in CH. rewrite E2 in CH. apply CH.
  Qed.
  Lemma acquire_above B t l : okt B t -> cur t = Acquire l -> Forall (fun h => Level h < Level (l (sto t))) (own t).
  Proof.
    intros O E. pose (t' := Thr (0%N, 0) Skip [] [] [l (sto t)]).
    pose proof (waiting_above B t t' O (or_introl (ex_intro _ l (conj E (or_introl eq_refl))))) as G.
    unfold awaited in G. rewrite E, bounds_tok, Forall_app in G. apply G.
  Qed.
  Lemma join_flag B t j : okt B t -> cur t = Join j -> start_checks_waits C = true.
  Proof. intros (_ & J & _) E. rewrite E in J. destruct J as [(? & _)|[]]. assumption. Qed.
  Lemma max_thread (D : list thread) : D <> [] -> exists t, In t D /\ forall t', In t' D -> awaited t' <= awaited t.
  Proof.
    induction D as [|d D IH]; [congruence|]. intros _. destruct D as [|e D].
    - exists d. split; [left; auto|]. intros t' [<-|[]]. lra.
    - destruct IH as (t & I & M); [discriminate|]. destruct (Qlt_le_dec (awaited d) (awaited t)) as [L|L].
      + exists t. split; [right; exact I|]. intros t' [<-|I']; [lra|]. apply M. exact I'.
      + exists d. split; [left; auto|]. intros t' [<-|I']; [lra|]. specialize (M t' I'). lra.
  Qed.
  Lemma inv_no_deadlock B st : Inv B st -> ~ deadlock st.
  Proof.
    intros I (D & NE & IN & W). unfold Inv in I. rewrite Forall_forall in I.
    destruct (max_thread D NE) as (t & TD & M). destruct (W t TD) as (t' & TD' & W1). destruct (W t' TD') as (t'' & _ & W2).
    pose proof (I t (IN t TD)) as It.
    pose proof (waiting_above B t' t'' (I t' (IN t' TD')) W2) as G. rewrite Forall_forall in G.
    specialize (M t' TD').
    assert (X : awaited t < awaited t'); [|lra].
    destruct W1 as [(l & E & IL)|(j & E & EQ & _)].
    - unfold awaited at 1. rewrite E. apply G. rewrite bounds_tok. apply in_or_app. right. exact IL.
    - unfold awaited at 1. rewrite E. apply G. rewrite <- EQ. unfold bounds. rewrite (join_flag B t j It E). left. reflexivity.
  Qed.

  (** * Progress *)
  Lemma finished_dec t : finished t \/ ~ finished t.
  Proof. unfold finished. destruct (cur t), (kon t); try (right; intros (? & ?); discriminate). left. auto. Qed.
  Lemma finished_own B t : okt B t -> finished t -> own t = [].
  Proof.
    intros ((H & Fr & rm & r & Q & OK & R & RM & PM & CH) & _) (E1 & E2). rewrite E1, E2 in *.
    inversion OK; subst. cbn in CH. apply H0 in CH. subst. apply Permutation_nil. symmetry. exact PM.
  Qed.
  Lemma locked_dec st l : locked st l \/ ~ locked st l.
  Proof.
    unfold locked. induction (threads st) as [|t ts [IH|IH]].
    - right. intros (? & [] & _).
    - left. destruct IH as (t' & ? & ?). exists t'. split; [right|]; auto.
    - destruct (in_dec ref_dec l (own t)) as [I|I]; [left; exists t; split; [left|]; auto|].
      right. intros (t' & [<-|I'] & O); [contradiction|]. apply IH. exists t'. auto.
  Qed.
  Lemma running_dec st r : running st r \/ ~ running st r.
  Proof.
    unfold running. induction (threads st) as [|t ts [IH|IH]].
    - right. intros (? & [] & _).
    - left. destruct IH as (t' & ? & ?). exists t'. split; [right|]; auto.
    - destruct (ref_dec (tid t) r) as [I|I]; [destruct (finished_dec t) as [F|F]|].
      + right. intros (t' & [<-|I'] & E & O); [contradiction|]. apply IH. exists t'. auto.
      + left. exists t. split; [left|]; auto.
      + right. intros (t' & [<-|I'] & E & O); [contradiction|]. apply IH. exists t'. auto.
  Qed.

  Lemma mv A D t u n n' : step C P (St (A ++ t :: D) n) (St (A ++ u :: D) n') -> moves C P (St (A ++ t :: D) n) t.
  Proof. intros S. exists A, D, u, [], n'. split; [reflexivity|]. rewrite app_nil_r. exact S. Qed.
  Lemma inv_thread B st t : Inv B st -> In t (threads st) -> ~ finished t ->
    moves C P st t \/ exists t', In t' (threads st) /\ ~ finished t' /\ waits_for t t'.
  Proof.
    intros I IN NF. assert (I0 := I). unfold Inv in I0. rewrite Forall_forall in I0. pose proof (I0 t IN) as It.
    destruct st as [ts n]. cbn in *. assert (IN0 := IN). apply in_split in IN as (A & D & ->). destruct t as [t c s K o].
    destruct It as ((H & Fr & rm & r & Q & OK & R & RM & PM & CH) & J & _). cbn in *.
    destruct c; cbn in CH.
    - destruct K as [|[c|b va inv c|me a ret s0] K]; [exfalso; apply NF; split; reflexivity| | |];
      left; eapply mv; apply s_local; constructor.
    - left. eapply mv. apply s_local. apply (l_do P f s K VNone).
    - left. eapply mv. apply s_local. constructor.
    - left. eapply mv. apply s_local. constructor.
    - left. destruct (b s) eqn:E; eapply mv; apply s_local; [apply l_enter|apply l_exit]; exact E.
    - left. destruct (nth_error P m) as [me|] eqn:E; [|contradiction]. eapply mv. apply s_local. eapply l_call. exact E.
    - destruct (locked_dec (St (A ++ Thr t (Acquire l) s K o :: D) n) (l s)) as [L|L].
      + right. destruct L as (t' & T1 & T2). exists t'. split; [exact T1|]. split.
        * intros F. cbn in T1. rewrite (finished_own B t' (I0 t' T1) F) in T2. destruct T2.
        * left. exists l. split; auto.
      + left. eapply mv. apply s_acquire. exact L.
    - left. destruct CH as (_ & F & PF & _). cbn in PF. eapply mv. apply (s_release C P A D t l s K o (F ++ Fr) n). rewrite PM, PF. reflexivity.
    - left. destruct CH as (PU & F & PF & W & _). cbn in PU, PF, W.
      assert (X : exists q, new_level (above s) (below s) (bounds C t o) q).
      { assert (GB : forall x, create_level_below r F x -> Forall (fun h => Level h < Level x) (bounds C t o)).
        { intros x (X1 & X2). rewrite bounds_tok. destruct R as (R & _). rewrite Forall_app in R. destruct R as (R1 & R2).
          rewrite Forall_app. split; [eapply Forall_impl; [|exact R1]; intros h ?; cbv beta in *; lra|].
          eapply Forall_perm; [symmetry; exact PM|]. rewrite Forall_app. split.
          - eapply Forall_perm; [symmetry; exact PF|exact X1].
          - eapply Forall_impl; [|exact R2]; intros h ?; cbv beta in *; lra. }
        unfold new_level. destruct (above s) as [a|], (below s) as [b|]; cbn in *.
        - destruct (between_ex (Level a) [b]) as (q & Q1 & Q2); [constructor; auto|]. exists q. inversion Q2; subst. auto.
        - exists (Level a + 1). split; auto. lra.
        - inversion W as [|? ? W1 _]; subst. apply GB in W1.
          destruct (max_ex (Level b - 1) (bounds C t o)) as (r' & M1 & M2 & M3).
          assert (r' < Level b) by (eapply max_lt; [exact M3|lra|exact W1]).
          destruct (between_ex r' [b]) as (q & Q1 & Q2); [constructor; auto|]. exists q. inversion Q2; subst. split; auto.
          eapply Forall_impl; [|exact M2]. intros h ?. cbv beta in *. lra.
        - destruct (max_ex 0 (bounds C t o)) as (r' & M1 & M2 & M3). exists (r' + 1). split; auto.
          eapply Forall_impl; [|exact M2]. intros h ?. cbv beta in *. lra. }
      destruct X as (q & X). eapply mv. apply s_new. exact X.
    - left. destruct (nth_error P m) as [me|] eqn:E; [|contradiction]. destruct CH as (_ & _ & F & PF & W & _).
      assert (PO : Permutation o (locks (m_pre me) (args s) ++ (F ++ Fr))) by (rewrite PM, PF, app_assoc; reflexivity).
      assert (X : exists q, Forall (fun h => Level h < q) (bounds C t (F ++ Fr)) /\
        (if start_checks_waits C then Forall (fun x => q < Level x) (waits (m_pre me) (args s)) else True)).
      { destruct (residue_ex B t r Fr F R) as (r' & A1 & A2 & (A3 & _) & A4). rewrite bounds_tok.
        destruct (start_checks_waits C).
        - destruct (between_ex r' (waits (m_pre me) (args s))) as (q & Q1 & Q2).
          { eapply Forall_impl; [|exact W]. exact A4. }
          exists q. split; auto. eapply Forall_impl; [|exact A3]. intros h ?. cbv beta in *. lra.
        - exists (r' + 1). split; auto. eapply Forall_impl; [|exact A3]. intros h ?. cbv beta in *. lra. }
      destruct X as (q & X1 & X2). exists A, D. eexists _, _, _. split; [reflexivity|]. eapply s_start; eassumption.
    - destruct (running_dec (St (A ++ Thr t (Join t0) s K o :: D) n) (t0 s)) as [L|L].
      + right. destruct L as (t' & T1 & T2 & T3). exists t'. split; [exact T1|]. split; auto. right. exists t0. auto.
      + left. eapply mv. apply s_join. exact L.
  Qed.
  Lemma inv_progress B st : Inv B st -> (exists t, In t (threads st) /\ ~ finished t) -> exists st', step C P st st'.
  Proof.
    intros I (t & IN & NF).
    assert (X : forall ts, incl ts (threads st) -> (exists st', step C P st st') \/
      forall t, In t ts -> ~ finished t -> exists t', In t' (threads st) /\ ~ finished t' /\ waits_for t t').
    { induction ts as [|u ts IH]; intros IC; [right; intros ? []|].
      destruct IH as [IH|IH]; [intros x Hx; apply IC; right; exact Hx|left; exact IH|].
      destruct (finished_dec u) as [F|F].
      - right. intros t0 [<-|T] N; [contradiction|auto].
      - destruct (inv_thread B st u I (IC u (or_introl eq_refl)) F) as [S|S]; [left; destruct S as (? & ? & ? & ? & ? & _ & S); eexists; exact S|].
        right. intros t0 [<-|T] N; [exact S|auto]. }
    destruct (X (threads st) (incl_refl _)) as [S|S]; [exact S|]. exfalso.
    assert (FD : exists D, (forall u, In u D <-> In u (threads st) /\ ~ finished u)).
    { clear. induction (threads st) as [|u ts (D & E)]; [exists []; intros u; split; [intros []|intros ([] & _)]|].
      destruct (finished_dec u) as [F|F].
      - exists D. intros v. rewrite E. split; [intros (? & ?); split; auto; right; auto|intros ([<-|?] & ?); [contradiction|auto]].
      - exists (u :: D). intros v. cbn. rewrite E. split; [intros [<-|(? & ?)]; auto|intros ([<-|?] & ?); auto]. }
    destruct FD as (D & E). apply (inv_no_deadlock B st I). exists D. split.
    - intros ->. apply (proj2 (E t)). auto.
    - split; [intros u U; apply E in U; apply U|]. intros u U. apply E in U as (U1 & U2).
      destruct (S u U1 U2) as (t' & T1 & T2 & T3). exists t'. split; [apply E; auto|exact T3].
  Qed.
End Soundness.

(** * The theorems *)
Lemma no_deadlock_join_free (P : prog) st0 st :
  verified nagini P -> (forall m me, nth_error P m = Some me -> join_free (m_body me)) ->
  initial P st0 -> steps nagini P st0 st ->
  ~ deadlock st.
Proof.
  intros V J I S. destruct (inv_reach nagini P V (fun m me E => or_intror (J m me E)) st0 st I S) as (B & IN).
  exact (inv_no_deadlock nagini P B st IN).
Qed.
Lemma progress_join_free (P : prog) st0 st :
  verified nagini P -> (forall m me, nth_error P m = Some me -> join_free (m_body me)) ->
  initial P st0 -> steps nagini P st0 st ->
  (forall t, In t (threads st) -> ~ finished t ->
     moves nagini P st t \/ exists t', In t' (threads st) /\ ~ finished t' /\ waits_for t t') /\
  ((exists t, In t (threads st) /\ ~ finished t) -> exists st', step nagini P st st').
Proof.
  intros V J I S. destruct (inv_reach nagini P V (fun m me E => or_intror (J m me E)) st0 st I S) as (B & IN).
  split; [intros t; exact (inv_thread nagini P B st t IN)|exact (inv_progress nagini P B st IN)].
Qed.
Lemma lock_order_join_free (P : prog) st0 st t l :
  verified nagini P -> (forall m me, nth_error P m = Some me -> join_free (m_body me)) ->
  initial P st0 -> steps nagini P st0 st ->
  In t (threads st) -> cur t = Acquire l ->
  forall h, In h (own t) -> Level h < Level (l (sto t)).
Proof.
  intros V J I S T E. destruct (inv_reach nagini P V (fun m me E => or_intror (J m me E)) st0 st I S) as (B & IN).
  unfold Inv in IN. rewrite Forall_forall in IN. apply Forall_forall. exact (acquire_above nagini P B t l (IN t T) E).
Qed.
Lemma no_deadlock_checked (P : prog) (C : config) st0 st :
  start_checks_waits C = true -> join_uses_loop_residue C = true ->
  verified C P -> initial P st0 -> steps C P st0 st ->
  ~ deadlock st /\ ((exists t, In t (threads st) /\ ~ finished t) -> exists st', step C P st st').
Proof.
  intros C1 C2 V I S. destruct (inv_reach C P V (fun m me E => or_introl (conj C1 C2)) st0 st I S) as (B & IN).
  split; [exact (inv_no_deadlock C P B st IN)|exact (inv_progress C P B st IN)].
Qed.
