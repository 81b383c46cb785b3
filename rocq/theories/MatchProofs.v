(** Proofs about the translation of [match]. *)
From Coq Require Import List Bool Arith Lia Permutation.
From Verif Require Import ExprSpec MatchSpec MatchModel.
Import ListNotations.

Definition is_some {A} (o : option A) : bool := match o with Some _ => true | None => false end.

(** Induction principle for patterns. *)
Section PatInd.
  Variable P : pattern -> Prop.
  Hypothesis HW : P PWild.
  Hypothesis HC : forall x, P (PCap x).
  Hypothesis HA : forall p x, P p -> P (PAs p x).
  Hypothesis HN : P PNone.
  Hypothesis HB : forall b, P (PBool b).
  Hypothesis HV : forall w, P (PVal w).
  Hypothesis HK : forall c kws, Forall (fun kp => P (snd kp)) kws -> P (PClass c kws).
  Hypothesis HO : forall p ps, P p -> Forall P ps -> P (POr p ps).
  Fixpoint pattern_ind' (p : pattern) : P p :=
    match p with
    | PWild => HW
    | PCap x => HC x
    | PAs p x => HA p x (pattern_ind' p)
    | PNone => HN
    | PBool b => HB b
    | PVal w => HV w
    | PClass c kws => HK c kws ((fix go kws : Forall (fun kp => P (snd kp)) kws :=
        match kws with
        | [] => Forall_nil _
        | kp :: kws' => Forall_cons _ (pattern_ind' (snd kp)) (go kws')
        end) kws)
    | POr p ps => HO p ps (pattern_ind' p) ((fix go ps : Forall P ps :=
        match ps with
        | [] => Forall_nil _
        | q :: ps' => Forall_cons _ (pattern_ind' q) (go ps')
        end) ps)
    end.
End PatInd.

Definition kw_conds (s : place) :=
  fix go acc (kws : list (nat * pattern)) := match kws with
         | [] => acc
         | (f, q) :: kws' => go (CAnd acc (tr_cond q (FieldOf s f))) kws'
         end.
Definition or_conds (s : place) :=
  fix go acc (ps : list pattern) := match ps with
         | [] => acc
         | q :: ps' => go (COr acc (tr_cond q s)) ps'
         end.

Lemma kw_conds_ok C h v0 l s v : forall kws acc b,
  place_val h v0 s = Some v ->
  cond_val C h v0 l acc = Some b ->
  (b = true -> kws <> [] -> exists r, v = VRef r) ->
  Forall (fun kp => kws_ok C (snd kp) -> forall s v, place_val h v0 s = Some v ->
            cond_val C h v0 l (tr_cond (snd kp) s) = Some (is_some (py_match C h (snd kp) v))) kws ->
  fold_right (fun kp P => kws_ok C (snd kp) /\ P) True kws ->
  cond_val C h v0 l (kw_conds s acc kws) = Some (b && is_some (match_kws (py_match C h) h v kws)).
Proof.
  induction kws as [|[f q] kws IH]; intros acc b Hs Ha Hr HF Hk; simpl.
  - now rewrite Ha, andb_true_r.
  - inversion HF as [|? ? Hq HF']; subst. destruct Hk as [Hkq Hk]. simpl in Hkq.
    destruct b.
    + destruct (Hr eq_refl) as [r ->]; [discriminate|].
      assert (Hc : cond_val C h v0 l (CAnd acc (tr_cond q (FieldOf s f)))
                   = Some (is_some (py_match C h q (get_field h (VRef r) f)))).
      { cbn [cond_val]. rewrite Ha. apply Hq; [exact Hkq|]. cbn [place_val]. now rewrite Hs. }
      rewrite (IH _ _ Hs Hc); auto.
      * destruct (py_match C h q _); simpl; auto.
        now destruct (match_kws _ _ _ _).
      * intros _ _. now exists r.
    + assert (Hc : cond_val C h v0 l (CAnd acc (tr_cond q (FieldOf s f))) = Some false)
        by (cbn [cond_val]; now rewrite Ha).
      rewrite (IH _ _ Hs Hc); auto. intros H; discriminate.
Qed.

Lemma or_conds_ok C h v0 l s v : forall ps acc b,
  place_val h v0 s = Some v ->
  cond_val C h v0 l acc = Some b ->
  Forall (fun q => kws_ok C q -> forall s v, place_val h v0 s = Some v ->
            cond_val C h v0 l (tr_cond q s) = Some (is_some (py_match C h q v))) ps ->
  fold_right (fun q P => kws_ok C q /\ P) True ps ->
  cond_val C h v0 l (or_conds s acc ps)
  = Some (b || is_some (first_some (fun q => py_match C h q v) ps)).
Proof.
  induction ps as [|q ps IH]; intros acc b Hs Ha HF Hk; simpl.
  - now rewrite Ha, orb_false_r.
  - inversion HF as [|? ? Hq HF']; subst. destruct Hk as [Hkq Hk].
    destruct b.
    + assert (Hc : cond_val C h v0 l (COr acc (tr_cond q s)) = Some true)
        by (cbn [cond_val]; now rewrite Ha).
      now rewrite (IH _ _ Hs Hc).
    + assert (Hc : cond_val C h v0 l (COr acc (tr_cond q s)) = Some (is_some (py_match C h q v)))
        by (cbn [cond_val]; rewrite Ha; auto).
      rewrite (IH _ _ Hs Hc); auto. now destruct (py_match C h q v).
Qed.

Lemma cond_ok C h v0 l p : kws_ok C p -> forall s v, place_val h v0 s = Some v ->
  cond_val C h v0 l (tr_cond p s) = Some (is_some (py_match C h p v)).
Proof.
  induction p using pattern_ind'; intros Hk s v Hs.
  - reflexivity.
  - reflexivity.
  - simpl in *. rewrite (IHp Hk _ _ Hs). now destruct (py_match C h p v).
  - simpl. rewrite Hs. now destruct v.
  - destruct b; simpl; rewrite Hs; destruct v as [| [] | | |]; simpl; rewrite ?Hs; reflexivity.
  - simpl. rewrite Hs. now destruct (eqv C v w).
  - destruct Hk as [Hr Hk].
    change (tr_cond (PClass c kws) s) with (kw_conds s (CInst s c) kws).
    rewrite (kw_conds_ok C h v0 l s v kws (CInst s c) (isinst C v c) Hs); auto.
    + simpl. now destruct (isinst C v c).
    + simpl. now rewrite Hs.
  - destruct Hk as [Hkp Hk].
    change (tr_cond (POr p ps) s) with (or_conds s (tr_cond p s) ps).
    rewrite (or_conds_ok C h v0 l s v ps _ _ Hs (IHp Hkp _ _ Hs)); auto.
    simpl. now destruct (py_match C h p v).
Qed.

Lemma match_names C h p : forall v bs, py_match C h p v = Some bs -> incl (map fst bs) (captures p).
Proof.
  induction p using pattern_ind'; intros v bs Hm; simpl in Hm.
  - inversion Hm. subst. intros x [].
  - inversion Hm. subst. intros y Hy. exact Hy.
  - destruct (py_match C h p v) eqn:E; [|discriminate]. inversion Hm; subst.
    rewrite map_app. simpl. apply incl_app.
    + apply incl_appl. eauto.
    + apply incl_appr. intros y Hy. exact Hy.
  - destruct v; inversion Hm. intros x [].
  - destruct v as [|b'| | |]; try discriminate. destruct (Bool.eqb b b'); inversion Hm. intros x [].
  - destruct (eqv C v w); inversion Hm. intros x [].
  - destruct (isinst C v c); [|discriminate]. simpl.
    revert bs Hm. induction kws as [|[f q] kws IH]; intros bs Hm; simpl in Hm.
    + inversion Hm. intros x [].
    + inversion H as [|? ? Hq H']; subst.
      destruct (py_match C h q _) eqn:E1; [|discriminate].
      destruct (match_kws _ _ _ kws) eqn:E2; [|discriminate].
      inversion Hm; subst. rewrite map_app. simpl. apply incl_app.
      * apply incl_appl. eapply Hq. exact E1.
      * apply incl_appr. now apply IH.
  - simpl. destruct (py_match C h p v) eqn:E.
    + inversion Hm; subst. apply incl_appl. eauto.
    + apply incl_appr. clear IHp E. revert Hm. induction ps as [|q ps IH]; intros Hm; simpl in Hm; [discriminate|].
      inversion H as [|? ? Hq H']; subst. simpl.
      destruct (py_match C h q v) eqn:E.
      * inversion Hm; subst. apply incl_appl. eauto.
      * apply incl_appr. auto.
Qed.

(** evaluation of the assigned places *)
Fixpoint eval_places (h : heap) (v : val) (asg : list (nat * place)) : option (list (nat * val)) :=
  match asg with
  | [] => Some []
  | (x, s) :: r => match place_val h v s, eval_places h v r with
                   | Some w, Some bs => Some ((x, w) :: bs)
                   | _, _ => None
                   end
  end.

Lemma eval_places_app h v a b xa xb :
  eval_places h v a = Some xa -> eval_places h v b = Some xb -> eval_places h v (a ++ b) = Some (xa ++ xb).
Proof.
  revert xa. induction a as [|[x s] a IH]; intros xa Ha Hb; simpl in *.
  - inversion Ha. exact Hb.
  - destruct (place_val h v s); [|discriminate]. destruct (eval_places h v a); [|discriminate].
    inversion Ha; subst. now rewrite (IH _ eq_refl Hb).
Qed.

Lemma run_assigns_eval h v : forall asg bs l, eval_places h v asg = Some bs ->
  run_assigns h v l asg = Some (bind_all l bs).
Proof.
  induction asg as [|[x s] r IH]; intros bs l He; simpl in *.
  - inversion He. reflexivity.
  - destruct (place_val h v s); [|discriminate]. destruct (eval_places h v r); [|discriminate].
    inversion He; subst. now rewrite (IH _ _ eq_refl).
Qed.

Lemma assigns_ok C h v0 p : kws_ok C p -> or_free p = true ->
  forall s v bs, place_val h v0 s = Some v -> py_match C h p v = Some bs ->
  map fst bs = captures p /\
  exists bs', eval_places h v0 (tr_assigns p s) = Some bs' /\ Permutation bs bs'.
Proof.
  induction p using pattern_ind'; intros Hk Ho s v bs Hs Hm.
  - inversion Hm. split; [reflexivity|]. exists []. split; [reflexivity|constructor].
  - simpl in Hm. inversion Hm. split; [reflexivity|]. exists [(x, v)]. simpl. rewrite Hs. auto.
  - simpl in Hm. destruct (py_match C h p v) as [b1|] eqn:E; [|discriminate]. inversion Hm; subst.
    destruct (IHp Hk Ho s v b1 Hs E) as [HE1 [bs' [HE2 HP]]].
    split; [simpl; rewrite map_app, HE1; reflexivity|].
    exists ((x, v) :: bs'). simpl. rewrite Hs, HE2. split; [reflexivity|].
    rewrite Permutation_app_comm. simpl. now constructor.
  - simpl in Hm. destruct v; inversion Hm. split; [reflexivity|]. exists []. split; [reflexivity|constructor].
  - simpl in Hm. destruct v as [|b'| | |]; try discriminate. destruct (Bool.eqb b b'); inversion Hm.
    split; [reflexivity|]. exists []. split; [reflexivity|constructor].
  - simpl in Hm. destruct (eqv C v w); inversion Hm. split; [reflexivity|]. exists []. split; [reflexivity|constructor].
  - destruct Hk as [Hr Hk]. simpl in Hm. destruct (isinst C v c) eqn:Ei; [|discriminate].
    assert (Hr' : kws <> [] -> exists r, v = VRef r) by (intros; apply Hr; auto).
    clear Hr Ei. simpl in Ho. simpl. revert bs Hm Hk Ho Hr'.
    induction kws as [|[f q] kws IH]; intros bs Hm Hk Ho Hr'; simpl in Hm.
    + inversion Hm. split; [reflexivity|]. exists []. split; [reflexivity|constructor].
    + inversion H as [|? ? Hq H']; subst. destruct Hk as [Hkq Hk].
      simpl in Ho. apply andb_true_iff in Ho. destruct Ho as [Hoq Ho]. cbn [snd fst flat_map] in *.
      destruct (py_match C h q _) as [b1|] eqn:E1; [|discriminate].
      destruct (match_kws _ _ _ kws) as [b2|] eqn:E2; [|discriminate].
      inversion Hm; subst.
      destruct (Hr') as [r ->]; [discriminate|].
      destruct (Hq Hkq Hoq (FieldOf s f) (h r f) b1) as [HE1 [c1 [HE2 HP]]]; [simpl; now rewrite Hs|exact E1|].
      destruct (IH H' b2 eq_refl Hk Ho) as [HE3 [c2 [HE4 HP2]]]; [intros; now exists r|].
      split; [now rewrite map_app, HE1, HE3|].
      exists (c1 ++ c2). split; [now apply eval_places_app|]. now apply Permutation_app.
  - assert (Hn : captures (POr p ps) = []) by (simpl in Ho |- *; destruct (captures p ++ flat_map captures ps); [reflexivity|discriminate]).
    pose proof (match_names C h _ _ _ Hm) as Hi. rewrite Hn in *.
    destruct bs as [|b bs]; [|exfalso; apply (Hi (fst b)); now left].
    split; [reflexivity|]. exists []. split; [reflexivity|constructor].
Qed.

Lemma upd_same l x v : upd_loc l x v x = v.
Proof. unfold upd_loc. now rewrite Nat.eqb_refl. Qed.
Lemma upd_other l x y v : y <> x -> upd_loc l x v y = l y.
Proof. unfold upd_loc. intros H. destruct (Nat.eqb_spec y x); [contradiction|].
  destruct (Nat.eqb_spec x y); [subst; contradiction|]; reflexivity. Qed.

Lemma bind_all_notin bs : forall l x, ~ In x (map fst bs) -> bind_all l bs x = l x.
Proof.
  induction bs as [|[y w] bs IH]; intros l x Hx; [reflexivity|].
  change (bind_all l ((y, w) :: bs)) with (bind_all (upd_loc l y w) bs).
  rewrite IH; [|intros H; apply Hx; now right].
  apply upd_other. intros ->. apply Hx. now left.
Qed.

Lemma bind_all_in bs : forall l x w, NoDup (map fst bs) -> In (x, w) bs -> bind_all l bs x = w.
Proof.
  induction bs as [|[y u] bs IH]; intros l x w Hd Hi; [contradiction|].
  change (bind_all l ((y, u) :: bs)) with (bind_all (upd_loc l y u) bs).
  inversion Hd; subst. destruct Hi as [Hi|Hi].
  - inversion Hi; subst. rewrite bind_all_notin; auto. apply upd_same.
  - now apply IH.
Qed.

Lemma bind_all_perm bs bs' l x : NoDup (map fst bs) -> Permutation bs bs' ->
  bind_all l bs x = bind_all l bs' x.
Proof.
  intros Hd HP.
  assert (HP' : Permutation (map fst bs) (map fst bs')) by now apply Permutation_map.
  assert (Hd' : NoDup (map fst bs')) by (eapply Permutation_NoDup; eauto).
  destruct (in_dec Nat.eq_dec x (map fst bs)) as [Hi|Hi].
  - apply in_map_iff in Hi. destruct Hi as [[y w] [Hy Hi]]. simpl in Hy. subst y.
    rewrite (bind_all_in bs l x w Hd Hi). symmetry. apply bind_all_in; auto.
    eapply Permutation_in; eauto.
  - rewrite (bind_all_notin bs), (bind_all_notin bs'); auto.
    intros H. apply Hi. eapply Permutation_in; [apply Permutation_sym|]; eauto.
Qed.

Lemma alias_in xs v : forall l x, In x xs -> alias_all l xs v x = v.
Proof.
  induction xs as [|y xs IH]; intros l x Hi; [contradiction|].
  simpl. destruct (in_dec Nat.eq_dec x xs) as [H|H]; [auto|].
  destruct Hi as [->|Hi]; [|contradiction].
  clear IH. revert l H. assert (G : forall xs l, ~ In x xs -> alias_all l xs v x = l x).
  { clear. induction xs as [|z zs IH]; intros l H; [reflexivity|]. simpl.
    rewrite IH; [|intros G; apply H; now right]. apply upd_other. intros ->. apply H. now left. }
  intros l H. rewrite G; auto. apply upd_same.
Qed.
Lemma alias_notin xs v : forall l x, ~ In x xs -> alias_all l xs v x = l x.
Proof.
  induction xs as [|z zs IH]; intros l x H; [reflexivity|]. simpl.
  rewrite IH; [|intros G; apply H; now right]. apply upd_other. intros ->. apply H. now left.
Qed.

Lemma aliases_whole p x : In x (guard_aliases p) <-> In x (whole_captures p).
Proof.
  induction p using pattern_ind'; simpl; try tauto.
  rewrite in_app_iff. simpl. tauto.
Qed.

Lemma captures_split p x : or_free p = true ->
  (In x (captures p) <-> In x (whole_captures p) \/ In x (part_captures p)).
Proof.
  induction p using pattern_ind'; simpl; intros Ho; try tauto.
  - rewrite !in_app_iff. simpl. rewrite (IHp Ho). tauto.
  - destruct (captures p ++ flat_map captures ps); [simpl; tauto|discriminate].
Qed.

Lemma whole_bound C h p : forall v bs x, py_match C h p v = Some bs -> In x (whole_captures p) -> In (x, v) bs.
Proof.
  induction p using pattern_ind'; intros v bs y Hm Hi; simpl in *; try contradiction.
  - inversion Hm. destruct Hi as [->|[]]. now left.
  - destruct (py_match C h p v) eqn:E; [|discriminate]. inversion Hm; subst.
    apply in_app_iff. apply in_app_iff in Hi. destruct Hi as [Hi|[->|[]]]; [left; eauto|right; now left].
Qed.

Lemma defines_captures p x : or_free p = true -> (In x (tr_defines p) <-> In x (captures p)).
Proof.
  induction p using pattern_ind'; simpl; intros Ho; try tauto.
  - rewrite in_app_iff. simpl. rewrite (IHp Ho). tauto.
  - rewrite !in_flat_map. rewrite forallb_forall in Ho. rewrite Forall_forall in H.
    split; intros [kp [H1 H2]]; exists kp; (split; [exact H1|]); apply (H kp H1); auto.
  - destruct (captures p ++ flat_map captures ps); [simpl; tauto|discriminate].
Qed.

Lemma in_out_of_sight stale p x :
  In x (out_of_sight stale p) <-> (In x stale \/ In x (part_captures p)) /\ ~ In x (whole_captures p).
Proof.
  unfold out_of_sight. rewrite filter_In, in_app_iff.
  destruct (existsb (Nat.eqb x) (whole_captures p)) eqn:E; simpl.
  - split; [intros [_ H]; discriminate|]. intros [_ H]. exfalso. apply H.
    apply existsb_exists in E. destruct E as [y [Hy Exy]]. apply Nat.eqb_eq in Exy. now subst.
  - split; [|tauto]. intros [H _]. split; [exact H|]. intros G.
    assert (existsb (Nat.eqb x) (whole_captures p) = true) by
      (apply existsb_exists; exists x; split; [exact G|apply Nat.eqb_refl]). congruence.
Qed.

Lemma cases_ok C h v : forall cs i stale lp lt,
  Forall (case_ok C) cs -> guards_ok stale cs ->
  (forall x, ~ In x stale -> lt x = lp x) ->
  exists l' defs,
    run_match C h v lt (tr_cases i cs) = Some (fst (py_cases C h v i lp cs), l', defs) /\
    (forall x, ~ In x (stale ++ guarded_names cs) -> l' x = snd (py_cases C h v i lp cs) x) /\
    match fst (py_cases C h v i lp cs) with
    | None => defs = []
    | Some k => i <= k /\ exists c, nth_error cs (k - i) = Some c /\
        (forall x, In x defs <-> In x (captures (c_pat c))) /\
        forall x, In x (captures (c_pat c)) -> l' x = snd (py_cases C h v i lp cs) x
    end.
Proof.
  induction cs as [|c cs IH]; intros i stale lp lt HF HG HL.
  - exists lt, []. simpl. repeat split; auto. intros x Hx. apply HL. intros H. apply Hx. apply in_or_app. now left.
  - inversion HF as [|? ? Hc HF']; subst. destruct Hc as [Hd [Ho Hk]].
    cbn [tr_cases run_match py_cases].
    pose proof (cond_ok C h v lt (c_pat c) Hk Subj v eq_refl) as HC.
    destruct (py_match C h (c_pat c) v) as [bs|] eqn:Em.
    + (* pattern matches *)
      destruct (assigns_ok C h v (c_pat c) Hk Ho Subj v bs eq_refl Em) as [Hn [bs' [HE HP]]].
      assert (Hdb : NoDup (map fst bs)) by (rewrite Hn; exact Hd).
      assert (Hchosen : forall x, ~ In x stale \/ In x (captures (c_pat c)) ->
                bind_all lt bs' x = bind_all lp bs x).
      { intros x Hx. rewrite <- (bind_all_perm bs bs' lt x Hdb HP).
        destruct (in_dec Nat.eq_dec x (captures (c_pat c))) as [Hi|Hi].
        - rewrite <- Hn in Hi. apply in_map_iff in Hi. destruct Hi as [[y w] [Hy Hi]]. simpl in Hy; subst y.
          now rewrite !(bind_all_in bs _ x w Hdb Hi).
        - destruct Hx as [Hx|Hx]; [|contradiction].
          rewrite !bind_all_notin; [now apply HL|rewrite Hn; exact Hi|rewrite Hn; exact Hi]. }
      cbn [guards_ok] in HG.
      destruct (c_guard c) as [g|] eqn:Eg.
      * destruct HG as [Hg HG].
        assert (Hgv : g (alias_all lt (guard_aliases (c_pat c)) v) = g (bind_all lp bs)).
        { apply Hg. intros x Hx. rewrite in_out_of_sight in Hx.
          destruct (in_dec Nat.eq_dec x (whole_captures (c_pat c))) as [Hi|Hi].
          - rewrite alias_in; [|now apply aliases_whole].
            symmetry. apply bind_all_in; [exact Hdb|]. eapply whole_bound; eauto.
          - rewrite alias_notin; [|intros H; apply Hi; now apply aliases_whole].
            rewrite bind_all_notin.
            + apply HL. intros H. apply Hx. split; [now left|exact Hi].
            + rewrite Hn. intros H. apply captures_split in H; [|exact Ho].
              destruct H as [H|H]; [contradiction|]. apply Hx. split; [now right|exact Hi]. }
        cbn [cond_val]. rewrite HC. cbn [is_some]. rewrite Hgv.
        destruct (g (bind_all lp bs)) eqn:Egv.
        -- rewrite (run_assigns_eval h v _ bs' lt HE). exists (bind_all lt bs'), (tr_defines (c_pat c)).
           cbn [fst snd]. split; [reflexivity|]. split.
           ++ intros x Hx. apply Hchosen. left. intros H. apply Hx. apply in_or_app. now left.
           ++ split; [lia|]. exists c. rewrite Nat.sub_diag. split; [reflexivity|]. split.
              ** intros x. now apply defines_captures.
              ** intros x Hx. apply Hchosen. now right.
        -- destruct (IH (S i) (stale ++ captures (c_pat c)) (bind_all lp bs) lt HF' HG) as [l' [defs [H1 [H2 H3]]]].
           { intros x Hx. rewrite bind_all_notin; [apply HL|rewrite Hn];
               intros H; apply Hx; apply in_or_app; [now left|now right]. }
           exists l', defs. split; [exact H1|]. split.
           ++ intros x Hx. apply H2. intros H. apply Hx. unfold guarded_names. cbn [flat_map]. rewrite Eg.
              rewrite app_assoc. exact H.
           ++ destruct (fst (py_cases C h v (S i) (bind_all lp bs) cs)) as [k|]; [|exact H3].
              destruct H3 as [Hle [c' [Hnth Hrest]]]. split; [lia|]. exists c'. split; [|exact Hrest].
              replace (k - i) with (S (k - S i)) by lia. exact Hnth.
      * rewrite HC. cbn [is_some]. rewrite (run_assigns_eval h v _ bs' lt HE).
        exists (bind_all lt bs'), (tr_defines (c_pat c)).
        cbn [fst snd]. split; [reflexivity|]. split.
        -- intros x Hx. apply Hchosen. left. intros H. apply Hx. apply in_or_app. now left.
        -- split; [lia|]. exists c. rewrite Nat.sub_diag. split; [reflexivity|]. split.
           ++ intros x. now apply defines_captures.
           ++ intros x Hx. apply Hchosen. now right.
    + (* no match *)
      assert (Hf : cond_val C h v lt (match c_guard c with
                  | None => tr_cond (c_pat c) Subj
                  | Some g => CAnd (tr_cond (c_pat c) Subj) (CGuard g (guard_aliases (c_pat c)))
                  end) = Some false)
        by (destruct (c_guard c); cbn [cond_val]; now rewrite HC).
      rewrite Hf.
      set (stale' := match c_guard c with None => stale | Some _ => stale ++ captures (c_pat c) end).
      destruct (IH (S i) stale' lp lt HF') as [l' [defs [H1 [H2 H3]]]].
      { cbn [guards_ok] in HG. unfold stale'. destruct (c_guard c); tauto. }
      { intros x Hx. apply HL. intros H. apply Hx. unfold stale'.
        destruct (c_guard c); [apply in_or_app; now left|exact H]. }
      exists l', defs. split; [exact H1|]. split.
      * intros x Hx. apply H2. intros H. apply Hx. unfold guarded_names. cbn [flat_map]. unfold stale' in H.
        destruct (c_guard c); [rewrite app_assoc|]; exact H.
      * destruct (fst (py_cases C h v (S i) lp cs)) as [k|]; [|exact H3].
        destruct H3 as [Hle [c' [Hnth Hrest]]]. split; [lia|]. exists c'. split; [|exact Hrest].
        replace (k - i) with (S (k - S i)) by lia. exact Hnth.
Qed.

Lemma c19_match_choice : forall C h v l cs,
  Forall (case_ok C) cs -> guards_ok [] cs ->
  exists l' defs,
    run_match C h v l (tr_cases 0 cs) = Some (fst (py_cases C h v 0 l cs), l', defs) /\
    (forall x, ~ In x (guarded_names cs) -> l' x = snd (py_cases C h v 0 l cs) x) /\
    match fst (py_cases C h v 0 l cs) with
    | None => defs = []
    | Some k => exists c, nth_error cs k = Some c /\
        (forall x, In x defs <-> In x (captures (c_pat c))) /\
        forall x, In x (captures (c_pat c)) -> l' x = snd (py_cases C h v 0 l cs) x
    end.
Proof.
  intros C h v l cs HF HG.
  destruct (cases_ok C h v cs 0 [] l l HF HG) as [l' [defs [H1 [H2 H3]]]]; [reflexivity|].
  exists l', defs. split; [exact H1|]. split; [exact H2|].
  destruct (fst (py_cases C h v 0 l cs)) as [k|]; [|exact H3].
  destruct H3 as [_ [c [Hn Hr]]]. exists c. rewrite Nat.sub_0_r in Hn. split; [exact Hn|exact Hr].
Qed.

Lemma c19_match_unguarded : forall C h v l cs,
  Forall (case_ok C) cs -> Forall (fun c => c_guard c = None) cs ->
  exists l' defs,
    run_match C h v l (tr_cases 0 cs) = Some (fst (py_cases C h v 0 l cs), l', defs) /\
    forall x, l' x = snd (py_cases C h v 0 l cs) x.
Proof.
  intros C h v l cs HF HN.
  assert (HG : forall st, guards_ok st cs).
  { intros st. induction cs as [|c cs IH]; simpl; [exact I|].
    inversion HN as [|? ? Hc HN']; subst. inversion HF; subst. rewrite Hc. auto. }
  assert (HE : guarded_names cs = []).
  { clear HG HF. induction cs as [|c cs IH]; simpl; [reflexivity|].
    inversion HN as [|? ? Hc HN']; subst. unfold guarded_names. simpl. rewrite Hc. apply (IH HN'). }
  destruct (cases_ok C h v cs 0 [] l l HF (HG [])) as [l' [defs [H1 [H2 _]]]]; [reflexivity|].
  exists l', defs. split; [exact H1|]. intros x. apply H2. rewrite HE. intros [].
Qed.

Lemma c19_pattern_condition : forall C h v l p,
  kws_ok C p ->
  cond_val C h v l (tr_cond p Subj)
  = Some (match py_match C h p v with Some _ => true | None => false end).
Proof. intros C h v l p Hk. exact (cond_ok C h v l p Hk Subj v eq_refl). Qed.
