(** Executions: attributes that can be read exist. *)
From Coq Require Import List Bool Arith NArith ZArith QArith Lqa Lia.
From Verif Require Import NamesModel ObjModel ObjSpec ObjProofs.
Import ListNotations.
Local Open Scope nat_scope.

Section Run.
  Variable P : program.
  Hypothesis WF : wf_prog P.
  Hypothesis NC : no_clash P.

  Definition tot (st : state) (r : res) : Q := total (holders st) r.

  Record Inv (st : state) : Prop := {
    i_nn : nonneg (holders st);
    i_le : forall o f, (tot st (RAcc o f) + tot st (RMay o f) <= 1)%Q;
    i_obj : forall o f, (0 < tot st (RAcc o f) + tot st (RMay o f))%Q ->
              o < length (objs st) /\ has_vfield P (class_of st o) f;
    i_val : forall o f, (0 < tot st (RAcc o f))%Q -> attrs st o (vname P f) = Some (vheap st o f) }.

  Lemma tot_nn st r : nonneg (holders st) -> (0 <= tot st r)%Q.
  Proof. apply total_nonneg. Qed.

  Lemma held_le st i r : nonneg (holders st) -> i < length (holders st) -> (held st i r <= tot st r)%Q.
  Proof. apply total_ge. Qed.

  Lemma tot_set st i p r : i < length (holders st) -> (tot (set_held st i p) r == tot st r - held st i r + p r)%Q.
  Proof. apply total_update. Qed.

  Lemma inv_less st st' :
    Inv st -> objs st' = objs st -> attrs st' = attrs st -> vheap st' = vheap st ->
    nonneg (holders st') -> (forall r, (tot st' r <= tot st r)%Q) -> Inv st'.
  Proof.
    intros I EO EA EV N L.
    assert (T : forall r, (0 <= tot st' r)%Q) by (intros r; apply tot_nn; exact N).
    constructor.
    - exact N.
    - intros o f. pose proof (i_le st I o f). pose proof (L (RAcc o f)). pose proof (L (RMay o f)). lra.
    - intros o f H. unfold class_of. rewrite EO. apply (i_obj st I). pose proof (L (RAcc o f)). pose proof (L (RMay o f)). lra.
    - intros o f H. rewrite EA, EV. apply (i_val st I). pose proof (L (RAcc o f)). lra.
  Qed.

  Lemma minus_nn p r q : (forall r', (0 <= p r')%Q) -> (q <= p r)%Q -> forall r', (0 <= minus p r q r')%Q.
  Proof.
    intros N L r'. unfold minus. destruct (res_eqb r r') eqn:E; [|apply N]. apply res_eqb_eq in E. subst r'. lra.
  Qed.

  Lemma plus_nn p r q : (forall r', (0 <= p r')%Q) -> (0 <= q)%Q -> forall r', (0 <= plus p r q r')%Q.
  Proof. intros N L r'. unfold plus. pose proof (N r'). destruct (res_eqb r r'); lra. Qed.

  Lemma nth_update_other {A} (l : list A) i j a d : i <> j -> nth j (update l i a) d = nth j l d.
  Proof.
    revert i j. induction l as [|x l IH]; intros [|i] [|j] N; cbn [update nth]; try congruence; auto.
  Qed.

  Lemma inv_give st i j r q : Inv st -> i < length (holders st) -> j < length (holders st) -> i <> j ->
    (0 <= q)%Q -> (q <= held st i r)%Q ->
    Inv (set_held (set_held st i (minus (held st i) r q)) j (plus (held st j) r q)).
  Proof.
    intros I Li Lj N Q0 Q1. pose proof (i_nn st I) as NN.
    apply (inv_less st); try reflexivity; try exact I.
    - cbn [set_held holders]. apply nonneg_update; [apply nonneg_update; [exact NN|]|].
      + apply minus_nn; [intros r'; apply held_nonneg; exact NN|exact Q1].
      + apply plus_nn; [intros r'; apply held_nonneg; exact NN|exact Q0].
    - intros r'. rewrite tot_set by (cbn [set_held holders]; rewrite update_length; exact Lj).
      rewrite tot_set by exact Li.
      assert (H : held (set_held st i (minus (held st i) r q)) j = held st j).
      { unfold held. cbn [set_held holders]. apply nth_update_other. exact N. }
      rewrite H. pose proof (plus_at (held st j) r q r') as E1. pose proof (minus_at (held st i) r q r') as E2.
      rewrite E1, E2. lra.
  Qed.

  Lemma inv_drop st i r q : Inv st -> i < length (holders st) -> (0 <= q)%Q -> (q <= held st i r)%Q ->
    Inv (set_held st i (minus (held st i) r q)).
  Proof.
    intros I Li Q0 Q1. pose proof (i_nn st I) as NN.
    apply (inv_less st); try reflexivity; try exact I.
    - cbn [set_held holders]. apply nonneg_update; [exact NN|].
      apply minus_nn; [intros r'; apply held_nonneg; exact NN|exact Q1].
    - intros r'. rewrite tot_set by exact Li. pose proof (minus_at (held st i) r q r') as E2. rewrite E2.
      destruct (res_eqb r r'); lra.
  Qed.

  Lemma inv_call st : Inv st -> Inv (St (objs st) (attrs st) (vheap st) (holders st ++ [none_held])).
  Proof.
    intros I. apply (inv_less st); try reflexivity; try exact I.
    - cbn [holders]. intros p r H. apply in_app_iff in H as [H|[<-|[]]]; [apply (i_nn st I); exact H|unfold none_held; lra].
    - intros r. unfold tot. cbn [holders]. rewrite total_app. unfold none_held. lra.
  Qed.

  Lemma inv_new st i C : Inv st -> i < length (holders st) ->
    Inv (set_held (St (objs st ++ [C]) (fun o' x => if length (objs st) =? o' then None else attrs st o' x)
                      (vheap st) (holders st))
                  i (new_perms (length (objs st)) (all_fields P C) (held st i))).
  Proof.
    intros I Li. pose proof (i_nn st I) as NN. set (o := length (objs st)).
    assert (ND : NoDup (all_fields P C)) by (apply (all_fields_nodup P WF); lia).
    set (st1 := St (objs st ++ [C]) (fun o' x => if o =? o' then None else attrs st o' x) (vheap st) (holders st)).
    assert (H1 : forall r, (tot (set_held st1 i (new_perms o (all_fields P C) (held st i))) r ==
                 tot st r + match r with RMay o' f => if (o =? o') && existsb (vfield_eqb f) (all_fields P C) then 1 else 0 | RAcc _ _ => 0 end)%Q).
    { intros r. rewrite tot_set by exact Li. pose proof (new_perms_spec o (all_fields P C) (held st i) r ND) as E. rewrite E.
      change (tot st1 r) with (tot st r). change (held st1 i r) with (held st i r). lra. }
    assert (Z : forall f, (tot st (RAcc o f) == 0)%Q /\ (tot st (RMay o f) == 0)%Q).
    { intros f. pose proof (tot_nn st (RAcc o f) NN). pose proof (tot_nn st (RMay o f) NN).
      destruct (Qlt_le_dec 0 (tot st (RAcc o f) + tot st (RMay o f))) as [L|L]; [|split; lra].
      destruct (i_obj st I o f L) as (L' & _). unfold o in L'. lia. }
    constructor.
    - cbn [set_held holders]. apply nonneg_update; [exact NN|]. intros r.
      pose proof (new_perms_spec o (all_fields P C) (held st i) r ND) as E. rewrite E. pose proof (held_nonneg st i r NN).
      destruct r as [o' f|o' f]; [lra|]. destruct ((o =? o') && existsb (vfield_eqb f) (all_fields P C)); lra.
    - intros o' f. rewrite !H1. pose proof (i_le st I o' f).
      destruct (Nat.eqb_spec o o') as [<-|NE]; cbn [andb].
      + destruct (Z f) as (Z1 & Z2). destruct (existsb (vfield_eqb f) (all_fields P C)); lra.
      + lra.
    - intros o' f. rewrite !H1. intros L. cbn [set_held objs st1]. rewrite app_length. cbn [length].
      unfold class_of. cbn [objs set_held st1].
      destruct (Nat.eqb_spec o o') as [<-|NE]; cbn [andb] in L.
      + split; [unfold o; lia|]. rewrite app_nth2 by (unfold o; lia). unfold o. rewrite Nat.sub_diag. cbn [nth].
        destruct (existsb (vfield_eqb f) (all_fields P C)) eqn:X.
        * apply existsb_exists in X as (g & IG & E). apply vfield_eqb_eq in E. subst g. apply (all_fields_spec P WF). exact IG.
        * destruct (Z f) as (Z1 & Z2). exfalso. lra.
      + assert (L2 : (0 < tot st (RAcc o' f) + tot st (RMay o' f))%Q) by lra.
        destruct (i_obj st I o' f L2) as (L' & H). split; [lia|]. rewrite app_nth1 by exact L'. exact H.
    - intros o' f. rewrite H1. intros L. cbn [set_held attrs vheap st1].
      assert (L2 : (0 < tot st (RAcc o' f))%Q) by lra.
      destruct (Nat.eqb_spec o o') as [<-|NE]; [destruct (Z f) as (Z1 & _); lra|]. exact (i_val st I o' f L2).
  Qed.

  Lemma set_attr_same a o x v : set_attr a o x v o x = v.
  Proof. unfold set_attr. rewrite Nat.eqb_refl, pystring_eqb_refl. reflexivity. Qed.

  Lemma set_attr_other a o x v o' x' : o <> o' \/ x <> x' -> set_attr a o x v o' x' = a o' x'.
  Proof.
    unfold set_attr. intros H. destruct (Nat.eqb_spec o o') as [->|]; cbn [andb]; [|reflexivity].
    destruct (pystring_eqb x x') eqn:E; [|reflexivity]. apply pystring_eqb_eq in E. destruct H; congruence.
  Qed.

  Lemma set_vheap_same h o f v : set_vheap h o f v o f = v.
  Proof. unfold set_vheap. rewrite Nat.eqb_refl, (proj2 (vfield_eqb_eq f f) eq_refl). reflexivity. Qed.

  Lemma set_vheap_other h o f v o' f' : o <> o' \/ f <> f' -> set_vheap h o f v o' f' = h o' f'.
  Proof.
    unfold set_vheap. intros H. destruct (Nat.eqb_spec o o') as [->|]; cbn [andb]; [|reflexivity].
    destruct (vfield_eqb f f') eqn:E; [|reflexivity]. apply vfield_eqb_eq in E. destruct H; congruence.
  Qed.

  Lemma field_dec (f g : vfield) : {f = g} + {f <> g}.
  Proof. destruct (vfield_eqb f g) eqn:E; [left; apply vfield_eqb_eq; exact E|right; intros ->; rewrite (proj2 (vfield_eqb_eq g g) eq_refl) in E; discriminate]. Qed.

  Definition both (p : perms) (o : nat) (f : vfield) : Q := (p (RAcc o f) + p (RMay o f))%Q.

  Lemma write_perms_spec p o f p' : (forall r, (0 <= p r)%Q) -> write_perms p o f = Some p' ->
    (forall r, (0 <= p' r)%Q) /\ (1 <= p' (RAcc o f))%Q /\
    (forall o' g, (both p' o' g == both p o' g)%Q) /\
    (forall o' g, o <> o' \/ f <> g -> (p' (RAcc o' g) == p (RAcc o' g))%Q).
  Proof.
    intros N E. unfold write_perms in E.
    destruct (negb (Qle_bool (p (RMay o f)) 0)).
    - destruct (Qle_bool 1 (p (RMay o f))) eqn:L; [|discriminate]. apply qle_bool in L.
      destruct (Qle_bool 1 (plus (minus p (RMay o f) 1) (RAcc o f) 1 (RAcc o f))) eqn:L2; [|discriminate].
      apply qle_bool in L2. inversion E; subst. clear E.
      split; [apply plus_nn; [apply minus_nn; assumption|lra]|]. split; [exact L2|].
      split.
      + intros o' g. unfold both.
        pose proof (plus_at (minus p (RMay o f) 1) (RAcc o f) 1 (RAcc o' g)) as A1.
        pose proof (plus_at (minus p (RMay o f) 1) (RAcc o f) 1 (RMay o' g)) as A2.
        pose proof (minus_at p (RMay o f) 1 (RAcc o' g)) as A3. pose proof (minus_at p (RMay o f) 1 (RMay o' g)) as A4.
        rewrite A1, A2, A3, A4. cbn [res_eqb]. destruct ((o =? o') && vfield_eqb f g); lra.
      + intros o' g H. pose proof (plus_at (minus p (RMay o f) 1) (RAcc o f) 1 (RAcc o' g)) as A1.
        pose proof (minus_at p (RMay o f) 1 (RAcc o' g)) as A3. rewrite A1, A3.
        rewrite (res_eqb_neq (RAcc o f) (RAcc o' g)) by (intros X; inversion X; subst; destruct H; congruence). cbn [res_eqb]. lra.
    - destruct (Qle_bool 1 (p (RAcc o f))) eqn:L2; [|discriminate]. apply qle_bool in L2. inversion E; subst.
      split; [exact N|]. split; [exact L2|]. split; intros; reflexivity.
  Qed.

  Lemma inv_write st i s o f v p' : Inv st -> i < length (holders st) -> o < length (objs st) ->
    subclass P (class_of st o) (s_type s) ->
    lookup P (s_union s) (s_cur s) (s_type s) (s_attr s) = Some f ->
    (s_union s = true -> own P s) ->
    write_perms (held st i) o f = Some p' ->
    Inv (set_held (St (objs st) (set_attr (attrs st) o (python_name P (s_cur s) (s_attr s)) (Some v))
                      (set_vheap (vheap st) o f v) (holders st)) i p').
  Proof.
    intros I Li Lo S LK OW W. pose proof (i_nn st I) as NN.
    destruct (lookup_has P WF _ _ _ _ f (class_of st o) S LK) as (HV & X & _).
    assert (PN : python_name P (s_cur s) (s_attr s) = vname P f).
    { unfold vname. rewrite X. destruct s as [u cur T x]. cbn [s_union s_cur s_type s_attr] in *.
      exact (lookup_own P u cur T x f LK OW). }
    rewrite PN. clear PN.
    destruct (write_perms_spec (held st i) o f p' (fun r => held_nonneg st i r NN) W) as (N' & L1 & B & A).
    set (st1 := St (objs st) (set_attr (attrs st) o (vname P f) (Some v)) (set_vheap (vheap st) o f v) (holders st)).
    assert (T : forall r, (tot (set_held st1 i p') r == tot st r - held st i r + p' r)%Q).
    { intros r. exact (tot_set st1 i p' r Li). }
    assert (TB : forall o' g, (tot (set_held st1 i p') (RAcc o' g) + tot (set_held st1 i p') (RMay o' g) ==
                               tot st (RAcc o' g) + tot st (RMay o' g))%Q).
    { intros o' g. rewrite !T. specialize (B o' g). unfold both in B. lra. }
    constructor.
    - cbn [set_held holders]. apply nonneg_update; assumption.
    - intros o' g. rewrite TB. apply (i_le st I).
    - intros o' g. rewrite TB. apply (i_obj st I).
    - intros o' g L. cbn [set_held attrs vheap st1].
      destruct (Nat.eq_dec o o') as [<-|NE].
      + destruct (field_dec f g) as [<-|NF].
        * rewrite set_attr_same, set_vheap_same. reflexivity.
        * rewrite T in L. rewrite (A o g) in L by (right; exact NF).
          assert (L2 : (0 < tot st (RAcc o g))%Q) by lra.
          assert (H2 : has_vfield P (class_of st o) g).
          { apply (i_obj st I o g). pose proof (tot_nn st (RMay o g) NN). lra. }
          rewrite set_attr_other, set_vheap_other.
          -- exact (i_val st I o g L2).
          -- right. exact NF.
          -- right. intros E. apply NF. exact (vname_inj P WF NC (class_of st o) f g HV H2 E).
      + rewrite T in L. rewrite (A o' g) in L by (left; exact NE).
        rewrite set_attr_other, set_vheap_other by (left; exact NE). apply (i_val st I). lra.
  Qed.

  Lemma inv_delete st i s o f p' : Inv st -> i < length (holders st) ->
    lookup_raw P (s_type s) (s_attr s) = Some f -> own P s ->
    delete_perms (held st i) o f = Some p' ->
    (match attrs st o (python_name P (s_cur s) (s_attr s)) with Some _ => true | None => false end) = true /\
    Inv (set_held (St (objs st) (set_attr (attrs st) o (python_name P (s_cur s) (s_attr s)) None)
                      (vheap st) (holders st)) i p').
  Proof.
    intros I Li LK OW W. pose proof (i_nn st I) as NN.
    assert (PN : python_name P (s_cur s) (s_attr s) = vname P f).
    { unfold lookup_raw in LK. destruct (get_field P (s_type s) (s_attr s)) as [c|] eqn:G; [|discriminate].
      inversion LK; subst. unfold vname. cbn [fst snd]. unfold python_name.
      destruct (python_private (s_attr s)) eqn:M; [|reflexivity]. rewrite (OW M), G. reflexivity. }
    rewrite PN. clear PN.
    unfold delete_perms in W. destruct (Qle_bool 1 (held st i (RAcc o f))) eqn:L; [|discriminate]. apply qle_bool in L.
    inversion W as [E]. clear W. rewrite E.
    pose proof (held_le st i (RAcc o f) NN Li) as HL. pose proof (tot_nn st (RMay o f) NN) as TM. pose proof (i_le st I o f) as TL.
    split. { rewrite (i_val st I o f) by lra. reflexivity. }
    assert (HV : has_vfield P (class_of st o) f) by (apply (i_obj st I); lra).
    set (st1 := St (objs st) (set_attr (attrs st) o (vname P f) None) (vheap st) (holders st)).
    assert (T : forall r, (tot (set_held st1 i p') r == tot st r - held st i r + p' r)%Q).
    { intros r. exact (tot_set st1 i p' r Li). }
    assert (PA : forall r, (p' r == held st i r - (if res_eqb (RAcc o f) r then 1 else 0) + (if res_eqb (RMay o f) r then 1 else 0))%Q).
    { intros r. rewrite <- E. pose proof (plus_at (minus (held st i) (RAcc o f) 1) (RMay o f) 1 r) as A1.
      pose proof (minus_at (held st i) (RAcc o f) 1 r) as A2. rewrite A1, A2. reflexivity. }
    assert (TB : forall o' g, (tot (set_held st1 i p') (RAcc o' g) + tot (set_held st1 i p') (RMay o' g) ==
                               tot st (RAcc o' g) + tot st (RMay o' g))%Q).
    { intros o' g. rewrite !T, !PA. cbn [res_eqb]. destruct ((o =? o') && vfield_eqb f g); lra. }
    constructor.
    - cbn [set_held holders]. apply nonneg_update; [exact NN|]. rewrite <- E.
      apply plus_nn; [apply minus_nn; [intros r; apply held_nonneg; exact NN|exact L]|lra].
    - intros o' g. rewrite TB. apply (i_le st I).
    - intros o' g. rewrite TB. apply (i_obj st I).
    - intros o' g L2. rewrite T, PA in L2. cbn [res_eqb] in L2. cbn [set_held attrs vheap st1].
      destruct (Nat.eq_dec o o') as [<-|NE].
      + rewrite Nat.eqb_refl in L2. cbn [andb] in L2. destruct (vfield_eqb f g) eqn:FG.
        * apply vfield_eqb_eq in FG as <-. exfalso. lra.
        * assert (NF : f <> g) by (intros <-; rewrite (proj2 (vfield_eqb_eq f f) eq_refl) in FG; discriminate).
          assert (L3 : (0 < tot st (RAcc o g))%Q) by lra.
          assert (H2 : has_vfield P (class_of st o) g).
          { apply (i_obj st I o g). pose proof (tot_nn st (RMay o g) NN). lra. }
          rewrite set_attr_other; [exact (i_val st I o g L3)|].
          right. intros E2. apply NF. exact (vname_inj P WF NC (class_of st o) f g HV H2 E2).
      + rewrite (proj2 (Nat.eqb_neq o o') NE) in L2. cbn [andb] in L2.
        rewrite set_attr_other by (left; exact NE). apply (i_val st I). lra.
  Qed.

  Lemma inv_step st l st' : Inv st -> step P st l st' -> own_label P l -> Inv st' /\ as_expected l.
  Proof.
    intros I S OW. inversion S; subst; clear S; cbn [own_label as_expected] in *.
    - split; [|exact Logic.I]. apply inv_new; assumption.
    - split; [|exact Logic.I]. eapply inv_write; eassumption.
    - split; [exact I|]. pose proof (i_nn st' I) as NN. pose proof (held_le st' i (RAcc o f) NN H) as HL.
      assert (PN : python_name P (s_cur s) (s_attr s) = vname P f).
      { destruct (lookup_has P WF _ _ _ _ f (class_of st' o) H1 H2) as (HV & X & _).
        unfold vname. rewrite X. destruct s as [u cur T x]. cbn [s_union s_cur s_type s_attr] in *.
        exact (lookup_own P u cur T x f H2 OW). }
      rewrite PN. apply (i_val st' I). lra.
    - destruct (inv_delete st i s o f p' I H H2 OW H4) as (E & I'). split; [exact I'|exact E].
    - split; [|exact Logic.I]. apply inv_give; try assumption. lra.
    - split; [|exact Logic.I]. apply inv_give; assumption.
    - split; [|exact Logic.I]. apply inv_drop; assumption.
    - split; [|exact Logic.I]. apply inv_call. exact I.
  Qed.

  Lemma inv_start : Inv start.
  Proof.
    constructor; cbn.
    - intros p r [<-|[]]. unfold none_held. lra.
    - intros o f. unfold tot, none_held. cbn. lra.
    - intros o f. unfold tot, none_held. cbn. intros H. lra.
    - intros o f. unfold tot, none_held. cbn. intros H. lra.
  Qed.

  Lemma run_expected tr st : steps P start tr st -> Forall (own_label P) tr -> Inv st /\ Forall as_expected tr.
  Proof.
    intros S. remember start as st0. induction S as [st|st1 tr st2 l st3 S IH STEP]; intros O; subst.
    - split; [apply inv_start|constructor].
    - apply Forall_app in O as (O1 & O2). apply Forall_inv in O2. destruct (IH eq_refl O1) as (I2 & A2).
      destruct (inv_step st2 l st3 I2 STEP O2) as (I3 & A3). split; [exact I3|]. apply Forall_app. split; [exact A2|].
      constructor; [exact A3|constructor].
  Qed.

  (** A new object's attributes can be set by its creator. *)
  Lemma create_write C s f : subclass P C (s_type s) ->
    lookup P (s_union s) (s_cur s) (s_type s) (s_attr s) = Some f ->
    forall (st : state) i, exists p',
      (forall r, (0 <= held st i r)%Q) ->
      (forall g, (held st i (RAcc (length (objs st)) g) == 0)%Q /\ (held st i (RMay (length (objs st)) g) == 0)%Q) ->
      write_perms (new_perms (length (objs st)) (all_fields P C) (held st i)) (length (objs st)) f = Some p' /\
      (1 <= p' (RAcc (length (objs st)) f))%Q.
  Proof.
    intros S LK st i. set (o := length (objs st)).
    destruct (lookup_has P WF _ _ _ _ f C S LK) as (HV & _). apply (all_fields_spec P WF) in HV.
    assert (ND : NoDup (all_fields P C)) by (apply (all_fields_nodup P WF); lia).
    set (p := new_perms o (all_fields P C) (held st i)).
    exists (plus (minus p (RMay o f) 1) (RAcc o f) 1). intros NN Z. destruct (Z f) as (Z1 & Z2).
    assert (PM : (p (RMay o f) == 1)%Q).
    { pose proof (new_perms_spec o (all_fields P C) (held st i) (RMay o f) ND) as E. unfold p. rewrite E.
      rewrite Nat.eqb_refl. cbn [andb].
      assert (X : existsb (vfield_eqb f) (all_fields P C) = true) by (apply existsb_exists; exists f; split; [exact HV|apply vfield_eqb_eq; reflexivity]).
      rewrite X. lra. }
    assert (PA : (p (RAcc o f) == 0)%Q).
    { pose proof (new_perms_spec o (all_fields P C) (held st i) (RAcc o f) ND) as E. unfold p. rewrite E. lra. }
    assert (V : (plus (minus p (RMay o f) 1) (RAcc o f) 1 (RAcc o f) == 1)%Q).
    { pose proof (plus_at (minus p (RMay o f) 1) (RAcc o f) 1 (RAcc o f)) as E. rewrite E.
      pose proof (minus_at p (RMay o f) 1 (RAcc o f)) as E2. rewrite E2. rewrite res_eqb_refl. cbn [res_eqb]. lra. }
    split; [|lra]. unfold write_perms.
    destruct (Qle_bool (p (RMay o f)) 0) eqn:L; [apply qle_bool in L; lra|]. cbn [negb].
    assert (L1 : Qle_bool 1 (p (RMay o f)) = true) by (apply Qle_bool_iff; lra). rewrite L1.
    assert (L2 : Qle_bool 1 (plus (minus p (RMay o f) 1) (RAcc o f) 1 (RAcc o f)) = true) by (apply Qle_bool_iff; lra).
    rewrite L2. reflexivity.
  Qed.

  (** MayCreate and del speak about the same field as assignments exactly if the class where
      the attribute is found does not inherit it. *)
  Lemma raw_agrees u cur T x f g c :
    lookup P u cur T x = Some f -> lookup_raw P T x = Some g -> get_field P T x = Some c ->
    (g = f <-> inherited P c x = None).
  Proof.
    unfold lookup, lookup_raw. intros E1 E2 G. rewrite G in *. cbn [option_map] in E2. inversion E2; subst g.
    match type of E1 with (if ?b then _ else _) = _ => destruct b; [discriminate|] end. inversion E1; subst f.
    unfold actual. cbn [actual_f]. destruct (inherited P c x) as [d|] eqn:IN.
    - split; [|discriminate]. intros X. inversion X as [X2]. exfalso.
      apply (inherited_lt P WF) in IN as (L & SC & LI).
      destruct c as [|c]; [lia|].
      pose proof (actual_f_spec P WF x (S c) d L LI) as (S2 & _). apply (subclass_le P WF) in S2. rewrite <- X2 in S2. lia.
    - split; auto.
  Qed.
End Run.
