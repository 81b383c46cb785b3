(** Proofs for control flow (C21, C22). *)
From Coq Require Import List Bool Arith Lia.
From Verif Require Import FlowSpec FlowModel.
Import ListNotations.

(** * Static analyses are sound *)

Section Static.
  Context {U : Type} (w : world U) (WOK : world_ok w).

  Lemma raise_sound n :
    (forall hb s u e u', exec w n hb s u = Some (ORaise e, u') -> may_raise_s s = true) /\
    (forall hb ss u e u', execs w n hb ss u = Some (ORaise e, u') -> may_raise ss = true) /\
    (forall hb hs e0 u e u', exech w n hb hs e0 u = Some (ORaise e, u') ->
       may_raise_h hs = true \/ (catchall hs = false /\ e = e0)).
  Proof.
    induction n as [|n (IH1 & IH2 & IH3)].
    { repeat split; intros; discriminate. }
    split; [|split].
    - intros hb s u e u' H. destruct s; cbn [exec] in H; cbn [may_raise_s]; try discriminate; auto.
      + destruct (blookup hb x); discriminate.
      + destruct (cond w c u); apply IH2 in H; rewrite H; auto using orb_true_r.
      + destruct (cond w c u).
        * destruct (execs w n hb body u) as [[[] u1]|] eqn:E; try discriminate.
          -- apply IH1 in H. exact H.
          -- injection H as <- <-. apply IH2 in E. rewrite E. reflexivity.
          -- apply IH1 in H. exact H.
        * apply IH2 in H. rewrite H. apply orb_true_r.
      + set (r := match execs w n hb body u with
                  | Some (ONormal, u') => execs w n hb orelse u'
                  | Some (ORaise e, u') => exech w n hb hs e u'
                  | r => r end) in *.
        destruct r as [[o u1]|] eqn:R; [|discriminate].
        destruct (execs w n hb fin u1) as [[[] u2]|] eqn:F; try discriminate.
        2:{ injection H as <- <-. apply IH2 in F. rewrite F. apply orb_true_r. }
        injection H as -> ->. subst r.
        destruct (execs w n hb body u) as [[[] u3]|] eqn:B; try discriminate.
        * apply IH2 in R. rewrite R. rewrite orb_true_r. reflexivity.
        * apply IH2 in B. apply IH3 in R. destruct R as [R|[R _]].
          -- rewrite R. rewrite orb_true_r. reflexivity.
          -- rewrite B, R. reflexivity.
      + destruct (execs w n hb body (enter w m u)) as [[[] u1]|] eqn:B; try discriminate.
        apply IH2 in B. exact B.
    - intros hb ss u e u' H. destruct ss; cbn [execs] in H; cbn [may_raise]; [discriminate|].
      destruct (exec w n hb s u) as [[[] u1]|] eqn:E; try discriminate.
      + apply IH2 in H. rewrite H. apply orb_true_r.
      + injection H as <- <-. apply IH1 in E. rewrite E. reflexivity.
    - intros hb hs e0 u e u' H. destruct hs; cbn [exech] in H; cbn [may_raise_h catchall].
      + injection H as <- <-. auto.
      + destruct (isinst w e0 c) eqn:I.
        * apply IH2 in H. rewrite H. auto.
        * apply IH3 in H. destruct H as [H|[H1 H2]].
          -- rewrite H. rewrite orb_true_r. auto.
          -- right. split; [|exact H2]. rewrite H1, orb_false_r.
             destruct (Nat.eqb_spec c 0); [|reflexivity]. subst.
             rewrite WOK in I. discriminate.
  Qed.

  Definition exits (l : bool) (o : outcome) : Prop :=
    match o with OReturn _ => True | OBreak | OContinue => l = false | _ => False end.

  Lemma exit_sound n :
    (forall hb s u o u' l, exec w n hb s u = Some (o, u') -> exits l o -> may_exit_s l s = true) /\
    (forall hb ss u o u' l, execs w n hb ss u = Some (o, u') -> exits l o -> may_exit l ss = true) /\
    (forall hb hs e0 u o u' l, exech w n hb hs e0 u = Some (o, u') -> exits l o ->
       may_exit_h l hs = true).
  Proof.
    induction n as [|n (IH1 & IH2 & IH3)].
    { repeat split; intros; discriminate. }
    split; [|split].
    - intros hb s u o u' l H X. destruct s; cbn [exec] in H; cbn [may_exit_s]; auto.
      + injection H as <- <-. destruct X.
      + destruct (call w a u) as [? []]; injection H as <- <-; destruct X.
      + destruct (blookup hb x); [|discriminate]. injection H as <- <-; destruct X.
      + destruct (cond w c u); eapply IH2 in H; eauto; rewrite H; auto using orb_true_r.
      + destruct (cond w c u).
        * destruct (execs w n hb body u) as [[[] u1]|] eqn:E; try discriminate.
          -- eapply IH1 in H; eauto.
          -- injection H as <- <-. eapply (IH2 _ _ _ _ _ true) in E; [|exact I]. rewrite E. reflexivity.
          -- injection H as <- <-. destruct X.
          -- injection H as <- <-. destruct X.
          -- eapply IH1 in H; eauto.
        * eapply IH2 in H; eauto. rewrite H. apply orb_true_r.
      + injection H as <- <-. cbn in X. subst. reflexivity.
      + injection H as <- <-. cbn in X. subst. reflexivity.
      + injection H as <- <-. destruct X.
      + set (r := match execs w n hb body u with
                  | Some (ONormal, u') => execs w n hb orelse u'
                  | Some (ORaise e, u') => exech w n hb hs e u'
                  | r => r end) in *.
        destruct r as [[o1 u1]|] eqn:R; [|discriminate].
        destruct (execs w n hb fin u1) as [[o2 u2]|] eqn:F; [|discriminate].
        assert (may_exit l fin = true \/ o = o1) as [D|D].
        { destruct o2; injection H as <- <-; auto; left; eapply IH2; eauto. }
        { rewrite D. apply orb_true_r. }
        subst o1. subst r.
        destruct (execs w n hb body u) as [[o3 u3]|] eqn:B; [|discriminate].
        assert (may_exit l body = true \/ may_exit_h l hs = true \/ may_exit l orelse = true) as [D|[D|D]].
        { destruct o3; try (injection R as <- <-; left; eapply IH2; eauto; fail).
          - right; right; eapply IH2; eauto.
          - right; left; eapply IH3; eauto. }
        all: rewrite D, ?orb_true_r; reflexivity.
      + destruct (execs w n hb body (enter w m u)) as [[o1 u1]|] eqn:B; try discriminate.
        assert (exits l o1) as X1.
        { destruct o1; try (injection H as <- <-; exact X).
          destruct (exit w m (Some e) u1) as [? []]; injection H as <- <-; exact X. }
        eapply IH2; eauto.
    - intros hb ss u o u' l H X. destruct ss; cbn [execs] in H; cbn [may_exit].
      + injection H as <- <-. destruct X.
      + destruct (exec w n hb s u) as [[o1 u1]|] eqn:E; try discriminate.
        assert (may_exit_s l s = true \/ may_exit l ss = true) as [D|D].
        { destruct o1; try (injection H as <- <-; left; eapply IH1; eauto; fail).
          right. eapply IH2; eauto. }
        all: rewrite D, ?orb_true_r; reflexivity.
    - intros hb hs e0 u o u' l H X. destruct hs; cbn [exech] in H; cbn [may_exit_h].
      + injection H as <- <-. destruct X.
      + destruct (isinst w e0 c) eqn:I.
        * eapply IH2 in H; eauto. rewrite H. auto.
        * eapply IH3 in H; eauto. rewrite H. apply orb_true_r.
  Qed.
End Static.

(** * Labels and their places *)

Lemma label_eqb_spec a b : label_eqb a b = true <-> a = b.
Proof.
  split.
  - destruct a, b; cbn; try discriminate; intros H;
      try (apply Nat.eqb_eq in H; subst; reflexivity); try reflexivity.
    apply andb_prop in H. destruct H as [H1 H2].
    apply Nat.eqb_eq in H1. apply Nat.eqb_eq in H2. subst. reflexivity.
  - intros <-. destruct a; cbn; rewrite ?Nat.eqb_refl; reflexivity.
Qed.

Lemma label_eqb_refl a : label_eqb a a = true.
Proof. apply label_eqb_spec. reflexivity. Qed.

Section VInd.
  Variable Q : vstmt -> Prop.
  Hypothesis Hif : forall c a b, Forall Q a -> Forall Q b -> Q (VIf c a b).
  Hypothesis Hwhile : forall c b, Forall Q b -> Q (VWhile c b).
  Hypothesis Hother : forall s,
    match s with VIf _ _ _ | VWhile _ _ => True | _ => Q s end.
  Fixpoint vstmt_ind' (s : vstmt) : Q s :=
    let all := fix all (l : list vstmt) : Forall Q l :=
      match l with [] => Forall_nil _ | x :: l' => Forall_cons _ (vstmt_ind' x) (all l') end in
    match s as s0 return (match s0 with VIf _ _ _ | VWhile _ _ => True | _ => Q s0 end -> Q s0) with
    | VIf c a b => fun _ => Hif c a b (all a) (all b)
    | VWhile c b => fun _ => Hwhile c b (all b)
    | _ => fun h => h
    end (Hother s).
End VInd.

Fixpoint cnt_s (l : label) (s : vstmt) : nat :=
  match s with
  | VLabel l' => if label_eqb l l' then 1 else 0
  | VIf _ a b => list_sum (map (cnt_s l) a) + list_sum (map (cnt_s l) b)
  | VWhile _ b => list_sum (map (cnt_s l) b)
  | _ => 0
  end.
Definition cnt (l : label) (ss : list vstmt) : nat := list_sum (map (cnt_s l) ss).

Lemma cnt_nil l : cnt l [] = 0.
Proof. reflexivity. Qed.
Lemma cnt_cons l s ss : cnt l (s :: ss) = cnt_s l s + cnt l ss.
Proof. reflexivity. Qed.
Lemma cnt_app l a b : cnt l (a ++ b) = cnt l a + cnt l b.
Proof. unfold cnt. rewrite map_app, list_sum_app. reflexivity. Qed.
Lemma cnt_if l c a b : cnt_s l (VIf c a b) = cnt l a + cnt l b.
Proof. reflexivity. Qed.
Lemma cnt_while l c b : cnt_s l (VWhile c b) = cnt l b.
Proof. reflexivity. Qed.

Lemma find_if l c a b r k :
  find_s l (VIf c a b) r k = orelse (find_label l a (KSeq r k)) (find_label l b (KSeq r k)).
Proof.
  cbn [find_s]. f_equal.
  - induction a as [|x a IH]; [reflexivity|]. cbn [find_label]. rewrite IH. reflexivity.
  - induction b as [|x b IH]; [reflexivity|]. cbn [find_label]. rewrite IH. reflexivity.
Qed.
Lemma find_while l c b r k : find_s l (VWhile c b) r k = find_label l b (KLoop c b r k).
Proof.
  cbn [find_s]. generalize (KLoop c b r k). intros K.
  induction b as [|x b IH]; [reflexivity|]. cbn [find_label]. rewrite IH. reflexivity.
Qed.

Lemma find_label_none l ss :
  Forall (fun s => forall r k, cnt_s l s = 0 -> find_s l s r k = None) ss ->
  forall k, cnt l ss = 0 -> find_label l ss k = None.
Proof.
  induction 1 as [|s ss H1 H2 IH]; intros k C; [reflexivity|].
  rewrite cnt_cons in C. cbn [find_label]. rewrite H1 by lia. cbn [orelse]. apply IH. lia.
Qed.

Lemma find_s_none l s : forall r k, cnt_s l s = 0 -> find_s l s r k = None.
Proof.
  revert s. apply (vstmt_ind' (fun s => forall r k, cnt_s l s = 0 -> find_s l s r k = None)).
  - intros c a b H H0 r k C. rewrite cnt_if in C. rewrite find_if.
    rewrite find_label_none by (auto; lia). cbn [orelse].
    apply find_label_none; [auto|lia].
  - intros c b H r k C. rewrite cnt_while in C. rewrite find_while. apply find_label_none; auto.
  - intros s. destruct s; try exact I; try reflexivity.
    intros r k. cbn. destruct (label_eqb l l0); [discriminate|reflexivity].
Qed.

Lemma find_none l ss k : cnt l ss = 0 -> find_label l ss k = None.
Proof. apply find_label_none. apply Forall_forall. intros s _. apply find_s_none. Qed.

(** [at_ ss k r k']: the statements [r], with continuation [k'], are a place in [ss]. *)
Inductive at_ : list vstmt -> cont -> list vstmt -> cont -> Prop :=
| at_here ss k : at_ ss k ss k
| at_next s ss k r k' : at_ ss k r k' -> at_ (s :: ss) k r k'
| at_if1 c a b ss k r k' : at_ a (KSeq ss k) r k' -> at_ (VIf c a b :: ss) k r k'
| at_if2 c a b ss k r k' : at_ b (KSeq ss k) r k' -> at_ (VIf c a b :: ss) k r k'
| at_while c b ss k r k' : at_ b (KLoop c b ss k) r k' -> at_ (VWhile c b :: ss) k r k'.

Lemma at_trans a k b k' : at_ a k b k' -> forall c k'', at_ b k' c k'' -> at_ a k c k''.
Proof. induction 1; intros c' k'' H'; eauto using at_. Qed.

Lemma at_app a b k : at_ (a ++ b) k b k.
Proof. induction a; cbn; auto using at_. Qed.

Lemma at_drop P0 k0 a b k : at_ P0 k0 (a ++ b) k -> at_ P0 k0 b k.
Proof. intros H. eapply at_trans; [exact H|apply at_app]. Qed.

Lemma at_cnt ss k r k' : at_ ss k r k' -> forall l, cnt l r <= cnt l ss.
Proof.
  induction 1; intros l; rewrite ?cnt_cons, ?cnt_if, ?cnt_while; try lia;
    specialize (IHat_ l); lia.
Qed.

Lemma at_find ss k r0 k' : at_ ss k r0 k' -> forall l r, r0 = VLabel l :: r -> cnt l ss <= 1 ->
  find_label l ss k = Some (r, k').
Proof.
  induction 1; intros l r1 -> C.
  - cbn [find_label find_s]. rewrite label_eqb_refl. reflexivity.
  - rewrite cnt_cons in C. cbn [find_label].
    pose proof (at_cnt _ _ _ _ H l) as D. rewrite cnt_cons in D. cbn [cnt_s] in D.
    rewrite label_eqb_refl in D. rewrite find_s_none by lia. cbn [orelse].
    apply IHat_; [reflexivity|lia].
  - rewrite cnt_cons, cnt_if in C. cbn [find_label]. rewrite find_if.
    rewrite (IHat_ l r1 eq_refl) by lia. reflexivity.
  - rewrite cnt_cons, cnt_if in C. cbn [find_label]. rewrite find_if.
    pose proof (at_cnt _ _ _ _ H l) as D. rewrite cnt_cons in D. cbn [cnt_s] in D.
    rewrite label_eqb_refl in D.
    rewrite (find_none l a) by lia. cbn [orelse].
    rewrite (IHat_ l r1 eq_refl) by lia. reflexivity.
  - rewrite cnt_cons, cnt_while in C. cbn [find_label]. rewrite find_while.
    rewrite (IHat_ l r1 eq_refl) by lia. reflexivity.
Qed.

(** ** Labels of the generated code are distinct *)

Definition owner (l : label) : option nat :=
  match l with
  | LPost t | LHandler t _ | LElse t | LFinally t | LLoopEnd t | LPostLoop t => Some t
  | LEnd => None
  end.
Definition ocount (l : label) (is : list nat) : nat :=
  match owner l with Some t => count_occ Nat.eq_dec is t | None => 0 end.

Lemma ocount_app l a b : ocount l (a ++ b) = ocount l a + ocount l b.
Proof. unfold ocount. destruct (owner l); [apply count_occ_app|reflexivity]. Qed.
Lemma ocount_cons l i is :
  ocount l (i :: is) = (match owner l with Some t => if t =? i then 1 else 0 | None => 0 end) + ocount l is.
Proof.
  unfold ocount. destruct (owner l) as [t|]; [|reflexivity]. cbn [count_occ].
  destruct (Nat.eq_dec i t) as [->|N].
  - rewrite Nat.eqb_refl. reflexivity.
  - destruct (Nat.eqb_spec t i); [congruence|reflexivity].
Qed.

Lemma cnt_handler_ifs l v t cs : forall i r, cnt l (handler_ifs v t i cs r) = cnt l r.
Proof.
  induction cs as [|c cs IH]; intros i r; cbn [handler_ifs]; [reflexivity|].
  rewrite cnt_cons, cnt_if, IH. unfold cnt. cbn. lia.
Qed.
Lemma cnt_catch_cases l v E u : cnt l u = 0 -> cnt l (catch_cases v E u) = 0.
Proof.
  intros H. induction E as [|t E IH]; cbn [catch_cases]; [exact H|].
  rewrite cnt_handler_ifs. destruct (tfin t); auto.
Qed.
Lemma cnt_catchers l d v E : cnt l (catchers d v E) = 0.
Proof.
  unfold catchers. rewrite cnt_cons, cnt_if, cnt_catch_cases; [reflexivity|].
  destruct (first_fw E); [reflexivity|]. destruct d; reflexivity.
Qed.
Lemma cnt_seq_ifs l v t cs : cnt l (seq_ifs v t cs) = 0.
Proof.
  unfold seq_ifs. induction (combine (seq 0 (length cs)) cs) as [|p q IH]; [reflexivity|].
  cbn [map]. rewrite cnt_cons, IH. reflexivity.
Qed.
Lemma cnt_except_walk l t E : cnt l (except_walk t E) = 0.
Proof.
  induction E as [|b E IH]; [reflexivity|]. cbn [except_walk]. rewrite cnt_app, cnt_seq_ifs.
  destruct (tfin b); [reflexivity|exact IH].
Qed.
Lemma cnt_handler_end l t f : cnt l (handler_end t f) = 0.
Proof. destruct f; reflexivity. Qed.
Lemma cnt_finally_end l d E lp t : cnt l (finally_end d E lp t) = 0.
Proof.
  unfold finally_end. destruct lp as [i|].
  - rewrite !cnt_cons, !cnt_if, !cnt_cons, !cnt_if, !cnt_cons, !cnt_if, !cnt_app, !cnt_except_walk.
    destruct (first_fin (same_loop (Some i) E)), (first_fin E), d; reflexivity.
  - rewrite !cnt_cons, !cnt_if, !cnt_app, !cnt_except_walk.
    destruct (first_fin E), d; reflexivity.
Qed.

Scheme stmt_ind2 := Induction for stmt Sort Prop
  with stmts_ind2 := Induction for stmts Sort Prop
  with handlers_ind2 := Induction for handlers Sort Prop.
Combined Scheme flow_ind from stmt_ind2, stmts_ind2, handlers_ind2.

Definition own_h (l : label) (t i : nat) : nat :=
  match l with LHandler t' j => if (t =? t') && (i <=? j) then 1 else 0 | _ => 0 end.

Lemma own_h_S l t i : (if label_eqb l (LHandler t i) then 1 else 0) + own_h l t (S i) <= own_h l t i.
Proof.
  destruct l; cbn [label_eqb own_h]; try lia.
  destruct (Nat.eqb_spec t0 t), (Nat.eqb_spec t t0), (Nat.eqb_spec i0 i); cbn [andb];
    destruct (Nat.leb_spec (S i) i0), (Nat.leb_spec i i0); lia.
Qed.

Lemma labels_bound :
  (forall s l d E lp al, cnt l (inl_s d E lp al s) + cnt l (def_s d E lp al s) <= ocount l (ids_s s)) /\
  (forall ss l d E lp al, cnt l (inl_ss d E lp al ss) + cnt l (def_ss d E lp al ss) <= ocount l (ids_ss ss)) /\
  (forall hs l d E lp al t i f,
     cnt l (handler_pieces d E lp al t i f hs) + cnt l (def_h d E lp al t hs)
     <= own_h l t i + ocount l (ids_h hs)).
Proof.
  apply flow_ind; intros.
  - cbn. lia.
  - cbn [inl_s def_s]. rewrite cnt_cons, cnt_catchers, cnt_nil. cbn. lia.
  - cbn [inl_s def_s]. destruct (blookup al x); cbn; lia.
  - cbn [inl_s def_s ids_s]. rewrite cnt_cons, cnt_if, cnt_app, ocount_app, cnt_nil.
    specialize (H l d E lp al). specialize (H0 l d E lp al). lia.
  - cbn [inl_s def_s ids_s]. rewrite !cnt_app, !cnt_cons, cnt_while, !cnt_app, !cnt_cons, !cnt_nil.
    rewrite ocount_cons, ocount_app.
    specialize (H l d E (Some i) al). specialize (H0 l d E (Some i) al).
    assert (cnt l (if d then [VNullErr] else []) = 0) by (destruct d; reflexivity).
    assert (cnt_s l (VLabel (LLoopEnd i)) + cnt_s l (VLabel (LPostLoop i)) <=
            match owner l with Some t => if t =? i then 1 else 0 | None => 0 end).
    { cbn [cnt_s]. destruct l; cbn [owner label_eqb]; try lia;
        match goal with |- context [?a =? ?b] => destruct (a =? b) end; lia. }
    change (cnt_s l VNullRes) with 0. lia.
  - cbn [inl_s def_s]. destruct (first_fw E), lp; cbn; lia.
  - cbn [inl_s def_s]. destruct (first_fw E), lp; cbn; lia.
  - cbn [inl_s def_s]. destruct (first_fw E), v; cbn; lia.
  - cbn [inl_s def_s]. rewrite cnt_cons, cnt_catchers, cnt_nil. cbn. lia.
  - cbn [inl_s def_s ids_s].
    assert (cnt l (if is_nil orelse then if is_nil fin then [] else [VGoto (LFinally i)]
                   else [VGoto (LElse i)]) = 0) as C0
      by (destruct (is_nil orelse), (is_nil fin); reflexivity).
    rewrite !cnt_app, C0. rewrite !ocount_cons, !ocount_app.
    specialize (H l d (try_info i hs fin lp :: E) lp al).
    specialize (H0 l d E lp al i 0 (negb (is_nil fin))).
    specialize (H1 l d E lp (handler_aliases i al hs)).
    specialize (H2 l d E lp []).
    assert (cnt l (if is_nil orelse then [] else
              [VLabel (LElse i)] ++ inl_ss d E lp (handler_aliases i al hs) orelse ++
              handler_end i (negb (is_nil fin))) <=
            cnt_s l (VLabel (LElse i)) + cnt l (inl_ss d E lp (handler_aliases i al hs) orelse)) as C1.
    { destruct (is_nil orelse); [rewrite cnt_nil; lia|].
      rewrite !cnt_app, cnt_handler_end, cnt_cons, cnt_nil. lia. }
    assert (cnt l (if is_nil fin then [] else
              [VLabel (LFinally i)] ++ inl_ss d E lp [] fin ++ finally_end d E lp i) <=
            cnt_s l (VLabel (LFinally i)) + cnt l (inl_ss d E lp [] fin)) as C2.
    { destruct (is_nil fin); [rewrite cnt_nil; lia|].
      rewrite !cnt_app, cnt_finally_end, cnt_cons, cnt_nil. lia. }
    assert (cnt l [VSetCode i 0] + cnt l [VLabel (LPost i)] + cnt_s l (VLabel (LElse i))
            + cnt_s l (VLabel (LFinally i)) + own_h l i 0 <=
            match owner l with Some t => if t =? i then 1 else 0 | None => 0 end) as C3.
    { rewrite !cnt_cons, cnt_nil. cbn [cnt_s].
      destruct l; cbn [owner label_eqb own_h]; rewrite ?(Nat.eqb_sym i);
        try (match goal with |- context [?a =? ?b] => destruct (a =? b) end); cbn; lia. }
    lia.
  - cbn [inl_s def_s ids_s]. rewrite !cnt_app, cnt_finally_end, !cnt_cons, !cnt_nil, ocount_cons.
    specialize (H l d (with_info i lp :: E) lp al).
    assert (cnt_s l (VLabel (LPost i)) + cnt_s l (VLabel (LFinally i)) <=
            match owner l with Some t => if t =? i then 1 else 0 | None => 0 end).
    { cbn [cnt_s]. destruct l; cbn [owner label_eqb]; try lia;
        match goal with |- context [?a =? ?b] => destruct (a =? b) end; lia. }
    change (cnt_s l (VEnter m)) with 0. change (cnt_s l (VSetCode i 0)) with 0.
    change (cnt_s l (VGoto (LFinally i))) with 0. change (cnt_s l (VExit m i)) with 0. lia.
  - cbn. lia.
  - cbn [inl_ss def_ss ids_ss]. rewrite !cnt_app, ocount_app.
    specialize (H l d E lp al). specialize (H0 l d E lp al). lia.
  - cbn. lia.
  - cbn [handler_pieces def_h ids_h]. rewrite !cnt_app, cnt_handler_end, cnt_cons, cnt_nil, ocount_app.
    specialize (H l d E lp (add_alias x t al)).
    specialize (H0 l d E lp (add_alias x t al) t (S i) f).
    pose proof (own_h_S l t i). cbn [cnt_s]. lia.
Qed.

Lemma method_labels d ss : NoDup (ids_ss ss) -> forall l, cnt l (tr_method d ss) <= 1.
Proof.
  intros ND l. unfold tr_method. rewrite !cnt_app, !cnt_cons, !cnt_nil.
  pose proof (proj1 (proj2 labels_bound) ss l d [] None []) as B.
  assert (ocount l (ids_ss ss) <= 1).
  { unfold ocount. destruct (owner l); [|lia]. apply NoDup_count_occ. exact ND. }
  change (cnt_s l VNullRes) with 0. change (cnt_s l VNullErr) with 0.
  change (cnt_s l (VGoto LEnd)) with 0.
  cbn [cnt_s]. destruct l; cbn [label_eqb]; try lia.
  unfold ocount in B. cbn in B. lia.
Qed.

(** * Simulation *)

Inductive ctarget := CHandler (t i : nat) | CFinally (t : nat) | CEnd.

Section Sim.
  Context {U : Type} (w : world U) (declared : bool) (P : list vstmt).
  Hypothesis WOK : world_ok w.
  Hypothesis NS : no_suppress w.
  Hypothesis ND : forall l, cnt l P <= 1.

  Inductive steps : config U -> config U -> Prop :=
  | steps_refl c : steps c c
  | steps_step c c' c'' : vstep w P c = Some c' -> steps c' c'' -> steps c c''.

  Lemma steps_trans a b c : steps a b -> steps b c -> steps a c.
  Proof. induction 1; eauto using steps. Qed.
  Lemma steps_one a b : vstep w P a = Some b -> steps a b.
  Proof. eauto using steps. Qed.

  Lemma jump_at l r k (s : vstate U) : at_ P KStop (VLabel l :: r) k -> jump P l s = Run r k s.
  Proof. intros H. unfold jump. rewrite (at_find _ _ _ _ H l r eq_refl (ND l)). reflexivity. Qed.

  Definition dloc (d : list vstmt) : Prop := exists post, at_ P KStop (d ++ post) KStop.
  Lemma dloc_l a b : dloc (a ++ b) -> dloc a.
  Proof. intros [p H]. exists (b ++ p). rewrite app_assoc. exact H. Qed.
  Lemma dloc_r a b : dloc (a ++ b) -> dloc b.
  Proof. intros [p H]. exists p. rewrite <- app_assoc in H. eapply at_drop; exact H. Qed.

  (** ** Environments *)
  Fixpoint match_h (cs : list nat) (i e : nat) : option nat :=
    match cs with
    | [] => None
    | c :: cs' => if isinst w e c then Some i else match_h cs' (S i) e
    end.
  Fixpoint catch (E : env) (e : nat) : ctarget :=
    match E with
    | [] => CEnd
    | t :: E' =>
        match match_h (ths t) 0 e with
        | Some i => CHandler (tid t) i
        | None => if tfin t || twith t then CFinally (tid t) else catch E' e
        end
    end.

  Definition no_with (E : env) : Prop := forall t, In t E -> twith t = false.
  Definition no_hs (E : env) : Prop := forall t, In t E -> ths t = [].
  Fixpoint wf_env (E : env) : Prop :=
    match E with
    | [] => True
    | t :: E' =>
        (twith t = true -> ths t = [] /\ tfin t = false /\ no_hs E' /\ no_with E') /\
        (tfin t = true -> no_with E') /\ wf_env E'
    end.

  Record rel (g : ctx) (E : env) (lp : option nat) : Prop := {
    r_with : c_with g = false -> no_with E;
    r_hs : c_handlers g = false -> no_hs E;
    r_fin : c_fin g = existsb tfin E;
    r_loop : c_loop g = true ->
             (exists i, lp = Some i) /\ c_loop_fin g = existsb tfin (same_loop lp E) /\
             (exists E2, E = same_loop lp E ++ E2)
  }.

  Definition fresh (E : env) (lp : option nat) (is : list nat) : Prop :=
    (forall t, In t E -> ~ In (tid t) is /\ forall j, tloop t = Some j -> ~ In j is) /\
    (forall j, lp = Some j -> ~ In j is).

  Definition names_ok (names : list nat) (E : env) (al : aliases) (hb : bindings) (is : list nat)
             (vs : vstate U) : Prop :=
    forall x, In x names -> exists t e, blookup al x = Some t /\ blookup hb x = Some e /\
      verr vs t = Some e /\ ~ In t is /\ ~ In t (map tid E).

  Record pre (g : ctx) (E : env) (lp : option nat) (al : aliases) (hb : bindings) (is : list nat)
         (u : U) (vs : vstate U) : Prop := {
    p_rel : rel g E lp;
    p_wf : wf_env E;
    p_fresh : fresh E lp is;
    p_names : names_ok (c_names g) E al hb is vs;
    p_u : vu vs = u;
    p_res : vres vs = None;
    p_err : vmerr vs = None
  }.

  Lemma fresh_incl E lp is is' : incl is' is -> fresh E lp is -> fresh E lp is'.
  Proof.
    intros I [H1 H2]. split.
    - intros t Ht. destruct (H1 t Ht) as [A B]. split; [auto|]. intros j Hj X. apply (B j Hj). auto.
    - intros j Hj X. apply (H2 j Hj). auto.
  Qed.
  Lemma names_incl n E al hb is is' vs :
    incl is' is -> names_ok n E al hb is vs -> names_ok n E al hb is' vs.
  Proof.
    intros I H x Hx. destruct (H x Hx) as (t & e & A & B & C & D & F).
    exists t, e. repeat split; auto.
  Qed.
  Lemma pre_incl g E lp al hb is is' u vs :
    incl is' is -> pre g E lp al hb is u vs -> pre g E lp al hb is' u vs.
  Proof. intros I []. constructor; eauto using fresh_incl, names_incl. Qed.

  (** ** Where an outcome goes *)
  Definition target (E : env) (lp : option nat) (o : outcome) : option (label * option (nat * nat)) :=
    match o with
    | ONormal => None
    | OReturn _ =>
        Some (match first_fw E with Some t => (LFinally t, Some (t, 1)) | None => (LEnd, None) end)
    | OBreak =>
        match lp with
        | None => None
        | Some i =>
            Some (match first_fin (same_loop lp E) with
                  | Some t => (LFinally t, Some (t, 3)) | None => (LPostLoop i, None) end)
        end
    | OContinue =>
        match lp with
        | None => None
        | Some i =>
            Some (match first_fin (same_loop lp E) with
                  | Some t => (LFinally t, Some (t, 4)) | None => (LLoopEnd i, None) end)
        end
    | ORaise e =>
        match catch E e with
        | CHandler t i => Some (LHandler t i, None)
        | CFinally t => Some (LFinally t, Some (t, 2))
        | CEnd => if declared then Some (LEnd, None) else None
        end
    end.
  Definition tcode (E : env) (lp : option nat) (o : outcome) : option (nat * nat) :=
    match target E lp o with Some (_, c) => c | None => None end.
  Definition with_code (c : option (nat * nat)) (f : nat -> nat) (t : nat) : nat :=
    match c with Some (t0, n) => if t =? t0 then n else f t | None => f t end.
  Definition res_of (o : outcome) : option nat := match o with OReturn v => v | _ => None end.
  Definition err_of (E : env) (o : outcome) : option nat :=
    match o with
    | ORaise e => match catch E e with CEnd => Some e | _ => None end
    | _ => None
    end.

  Definition reach (c0 : config U) (rest : list vstmt) (k : cont) (E : env) (lp : option nat)
             (o : outcome) (vs' : vstate U) : Prop :=
    match o with
    | ONormal => steps c0 (Run rest k vs')
    | _ => match target E lp o with
           | Some (l, _) => steps c0 (jump P l vs')
           | None => steps c0 Failed
           end
    end.

  Record post (E : env) (lp : option nat) (o : outcome) (is : list nat) (ind : bool)
         (u' : U) (vs vs' : vstate U) : Prop := {
    q_u : vu vs' = u';
    q_res : vres vs' = res_of o;
    q_err : vmerr vs' = err_of E o;
    q_code : forall t, ~ In t is -> vcode vs' t = with_code (tcode E lp o) (vcode vs) t;
    q_errs : forall t, ~ In t is -> errvar E <> Some t -> verr vs' t = verr vs t;
    q_dir : ind = false -> forall e h E', o = ORaise e -> E = h :: E' -> verr vs' (tid h) = Some e
  }.

  Definition lands (c0 : config U) (rest : list vstmt) (k : cont) (E : env) (lp : option nat)
             (o : outcome) (is : list nat) (ind : bool) (u' : U) (vs : vstate U) : Prop :=
    exists vs', reach c0 rest k E lp o vs' /\ post E lp o is ind u' vs vs'.

  Lemma reach_steps c1 c0 rest k E lp o vs' :
    steps c1 c0 -> reach c0 rest k E lp o vs' -> reach c1 rest k E lp o vs'.
  Proof.
    intros S R. unfold reach in *.
    destruct o; [eapply steps_trans; eauto|..];
      (destruct (target E lp _) as [[l c]|]; eapply steps_trans; eauto).
  Qed.
  Lemma reach_abrupt c0 rest k rest' k' E lp o vs' :
    o <> ONormal -> reach c0 rest k E lp o vs' -> reach c0 rest' k' E lp o vs'.
  Proof. intros N R. unfold reach in *. destruct o; [congruence|..]; exact R. Qed.

  Lemma lands_steps c1 c0 rest k E lp o is ind u' vs :
    steps c1 c0 -> lands c0 rest k E lp o is ind u' vs -> lands c1 rest k E lp o is ind u' vs.
  Proof. intros S (vs' & R & Q). exists vs'. eauto using reach_steps. Qed.

  (** Weakening of an abrupt result. *)
  Lemma post_incl E lp o is is' ind ind' u' vs vs' :
    incl is is' -> (ind' = false -> ind = false) ->
    post E lp o is ind u' vs vs' -> post E lp o is' ind' u' vs vs'.
  Proof.
    intros I J [Qu Qr Qe Qc Qs Qd]. constructor; [exact Qu|exact Qr|exact Qe|..].
    - intros t H. apply Qc. intros X. apply H. apply I. exact X.
    - intros t H. apply Qs. intros X. apply H. apply I. exact X.
    - intros D. apply Qd. apply J. exact D.
  Qed.

  (** After a normal first part, the second part decides. *)
  Lemma post_seq E lp o is1 is2 is i1 i2 ind u1 u' vs vs1 vs' :
    incl is1 is -> incl is2 is -> (ind = false -> i2 = false) ->
    post E lp ONormal is1 i1 u1 vs vs1 -> post E lp o is2 i2 u' vs1 vs' ->
    post E lp o is ind u' vs vs'.
  Proof.
    intros I1 I2 J Q1 Q2. destruct Q1, Q2. constructor; auto.
    - intros t H. rewrite q_code1 by auto. unfold with_code.
      destruct (tcode E lp o) as [[t0 n]|].
      + destruct (t =? t0); [reflexivity|]. rewrite q_code0 by auto. reflexivity.
      + rewrite q_code0 by auto. reflexivity.
    - intros t H H'. rewrite q_errs1 by auto. apply q_errs0; auto.
    - intros D. apply q_dir1. apply J. exact D.
  Qed.

  Lemma errvar_in E t : errvar E = Some t -> In t (map tid E).
  Proof. destruct E; cbn; [discriminate|]. intros [= <-]. auto. Qed.

  Lemma names_post n E lp al hb is is1 i1 o u1 vs vs1 :
    incl is1 is -> names_ok n E al hb is vs -> post E lp o is1 i1 u1 vs vs1 ->
    names_ok n E al hb is vs1.
  Proof.
    intros I H [] x Hx. destruct (H x Hx) as (t & e & A & B & C & D & F).
    exists t, e. repeat split; auto. rewrite q_errs0; auto.
    intros X. apply F. apply errvar_in. exact X.
  Qed.

  Lemma pre_post g E lp al hb is is1 i1 u u1 vs vs1 :
    incl is1 is -> pre g E lp al hb is u vs -> post E lp ONormal is1 i1 u1 vs vs1 ->
    pre g E lp al hb is u1 vs1.
  Proof.
    intros I [] Q. pose proof Q as Q'. destruct Q'. constructor; auto.
    eapply names_post; eauto.
  Qed.

  (** ** Exception catchers *)
  Lemma run_handler_ifs v t cs : forall i rest k vs e,
    get_err v vs = Some e ->
    (exists k', steps (Run (handler_ifs v t i cs rest) k vs)
        (match match_h cs i e with
         | Some j => jump P (LHandler t j) vs
         | None => Run rest k' vs
         end)).
  Proof.
    induction cs as [|c cs IH]; intros i rest k vs e G; cbn [handler_ifs match_h].
    - exists k. apply steps_refl.
    - destruct (isinst w e c) eqn:I.
      + exists k. eapply steps_step.
        { cbn [vstep ceval]. rewrite G, I. reflexivity. }
        apply steps_one. reflexivity.
      + destruct (IH (S i) rest (KSeq [] k) vs e G) as [k' IH']. exists k'. eapply steps_step; [|exact IH'].
        cbn [vstep ceval]. rewrite G, I. reflexivity.
  Qed.

  Lemma first_fw_none_with E : no_with E -> first_fw E = first_fin E.
  Proof.
    induction E as [|t E IH]; intros H; [reflexivity|]. cbn.
    rewrite (H t (or_introl eq_refl)), orb_false_r.
    destruct (tfin t); [reflexivity|]. apply IH. intros x Hx. apply H. right. exact Hx.
  Qed.

  (** Beyond a with there are no handlers. *)
  Lemma catch_cases_no_hs v E u : no_hs E -> catch_cases v E u = u.
  Proof.
    induction E as [|t E IH]; intros H; [reflexivity|]. cbn [catch_cases].
    rewrite (H t (or_introl eq_refl)). cbn [handler_ifs].
    destruct (tfin t); [reflexivity|]. apply IH. intros x Hx. apply H. right. exact Hx.
  Qed.

  Lemma run_catch_cases v : forall E u k vs e, wf_env E -> get_err v vs = Some e ->
    exists k', steps (Run (catch_cases v E u) k vs)
      (match catch E e with
       | CHandler t i => jump P (LHandler t i) vs
       | _ => Run u k' vs
       end) /\
      (match catch E e with
       | CFinally t => first_fw E = Some t
       | CEnd => first_fw E = None
       | _ => True end).
  Proof.
    induction E as [|t E IH]; intros u k vs e W G; cbn [catch_cases catch first_fw].
    - exists k. split; [apply steps_refl|reflexivity].
    - destruct W as (W1 & W2 & W3).
      destruct (run_handler_ifs v (tid t) (ths t) 0
                  (if tfin t then u else catch_cases v E u) k vs e G) as [k' S].
      destruct (match_h (ths t) 0 e) as [j|] eqn:M.
      { exists k. split; [exact S|exact I]. }
      destruct (tfin t) eqn:F.
      { exists k'. cbn [orb]. split; [exact S|reflexivity]. }
      destruct (twith t) eqn:W.
      { destruct (W1 eq_refl) as (_ & _ & NH & _). rewrite catch_cases_no_hs in S by exact NH.
        exists k'. cbn [orb]. rewrite catch_cases_no_hs by exact NH.
        split; [exact S|reflexivity]. }
      cbn [orb]. destruct (IH u k' vs e W3 G) as (k'' & S' & T).
      exists k''. split; [eapply steps_trans; eauto|exact T].
  Qed.

  Lemma run_catchers v E rest k vs e : wf_env E -> get_err v vs = Some e ->
    match catch E e with
    | CHandler t i => steps (Run (catchers declared v E ++ rest) k vs) (jump P (LHandler t i) vs)
    | CFinally t => steps (Run (catchers declared v E ++ rest) k vs)
                          (jump P (LFinally t) (set_code t 2 vs))
    | CEnd => steps (Run (catchers declared v E ++ rest) k vs)
                    (if declared then jump P LEnd (set_err None (Some e) vs) else Failed)
    end.
  Proof.
    intros W G. unfold catchers.
    set (u := match first_fw E with Some t => _ | None => _ end).
    destruct (run_catch_cases v E u (KSeq rest k) vs e W G) as (k' & S & T).
    assert (steps (Run ([VIf (CErrSet v) (catch_cases v E u) []] ++ rest) k vs)
                  (Run (catch_cases v E u) (KSeq rest k) vs)) as S0.
    { apply steps_one. cbn [app vstep ceval]. rewrite G. reflexivity. }
    destruct (catch E e).
    - eapply steps_trans; eauto.
    - eapply steps_trans; [exact S0|]. eapply steps_trans; [exact S|]. subst u. rewrite T.
      eapply steps_step; [reflexivity|]. apply steps_one. reflexivity.
    - eapply steps_trans; [exact S0|]. eapply steps_trans; [exact S|]. subst u. rewrite T.
      destruct declared.
      + eapply steps_step; [reflexivity|]. apply steps_one. cbn [vstep]. rewrite G. reflexivity.
      + apply steps_one. reflexivity.
  Qed.

  Lemma run_no_err v E rest k vs : get_err v vs = None ->
    steps (Run (catchers declared v E ++ rest) k vs) (Run rest k vs).
  Proof.
    intros G. eapply steps_step.
    { unfold catchers. cbn [app vstep ceval]. rewrite G. reflexivity. }
    apply steps_one. reflexivity.
  Qed.

  Lemma get_set_err v e (vs : vstate U) : get_err v (set_err v e vs) = e.
  Proof. destruct v; cbn; [|reflexivity]. unfold upd. rewrite Nat.eqb_refl. reflexivity. Qed.

  (** Raising [e] into the error variable of the environment. *)
  Lemma lands_raise E lp rest k vs e : wf_env E -> vres vs = None -> vmerr vs = None ->
    lands (Run (catchers declared (errvar E) E ++ rest) k (set_err (errvar E) (Some e) vs))
          rest k E lp (ORaise e) [] false (vu vs) vs.
  Proof.
    intros W R M. set (vs1 := set_err (errvar E) (Some e) vs).
    pose proof (run_catchers (errvar E) E rest k vs1 e W (get_set_err _ _ _)) as S.
    destruct (catch E e) eqn:C.
    - exists vs1. split.
      + unfold reach, target. rewrite C. exact S.
      + constructor; unfold tcode, target; try rewrite C; subst vs1.
        * destruct (errvar E); reflexivity.
        * destruct (errvar E); exact R.
        * cbn [err_of]. rewrite C. destruct E; [discriminate C|]. exact M.
        * intros x _. destruct (errvar E); reflexivity.
        * intros x _ H. destruct (errvar E); [|reflexivity]. cbn. unfold upd.
          destruct (Nat.eqb_spec x n); [congruence|reflexivity].
        * intros _ e' h E' [= <-] ->. cbn. unfold upd. rewrite Nat.eqb_refl. reflexivity.
    - exists (set_code t 2 vs1). split.
      + unfold reach, target. rewrite C. exact S.
      + constructor; unfold tcode, target; try rewrite C; subst vs1.
        * destruct (errvar E); reflexivity.
        * destruct (errvar E); exact R.
        * cbn [err_of]. rewrite C. destruct E; [discriminate C|]. exact M.
        * intros x _. destruct (errvar E); reflexivity.
        * intros x _ H. destruct (errvar E); [|reflexivity]. cbn. unfold upd.
          destruct (Nat.eqb_spec x n); [congruence|reflexivity].
        * intros _ e' h E' [= <-] ->. cbn. unfold upd. rewrite Nat.eqb_refl. reflexivity.
    - exists (set_err None (Some e) vs1). split.
      + unfold reach, target. rewrite C. destruct declared; exact S.
      + assert (tcode E lp (ORaise e) = None) as TC.
        { unfold tcode, target. rewrite C. destruct declared; reflexivity. }
        constructor; try rewrite TC; subst vs1.
        * destruct (errvar E); reflexivity.
        * destruct (errvar E); exact R.
        * cbn [err_of]. rewrite C. reflexivity.
        * intros x _. destruct (errvar E); reflexivity.
        * intros x _ H. destruct (errvar E); [|reflexivity]. cbn. unfold upd.
          destruct (Nat.eqb_spec x n); [congruence|reflexivity].
        * intros _ e' h E' [= <-] ->. cbn. unfold upd. rewrite Nat.eqb_refl. reflexivity.
  Qed.

  (** ** Break and continue stay in loops and outside of with *)
  Definition loops (o : outcome) : Prop := match o with OBreak | OContinue => True | _ => False end.

  Lemma fin_no_loop n :
    (forall hb s u o u', exec w n hb s u = Some (o, u') -> fin_ok_s s = true -> ~ loops o) /\
    (forall hb ss u o u', execs w n hb ss u = Some (o, u') -> fin_ok ss = true -> ~ loops o).
  Proof.
    induction n as [|n (IH1 & IH2)]; [split; intros; discriminate|]. split.
    - intros hb s u o u' H F L. destruct s; cbn [exec] in H; cbn [fin_ok_s] in F; try discriminate.
      + injection H as <- <-. destruct L.
      + apply andb_prop in F. destruct F as [F1 F2]. destruct (cond w c u); eapply IH2; eauto.
      + injection H as <- <-. destruct L.
    - intros hb ss u o u' H F L. destruct ss; cbn [execs] in H; cbn [fin_ok] in F.
      + injection H as <- <-. destruct L.
      + apply andb_prop in F. destruct F as [F1 F2].
        destruct (exec w n hb s u) as [[o1 u1]|] eqn:E; [|discriminate].
        destruct o1; try (injection H as <- <-; eapply IH1; eauto; fail).
        eapply IH2; eauto.
  Qed.

  Lemma loop_sound n :
    (forall hb s u o u' g, exec w n hb s u = Some (o, u') -> supported_s g s = true -> loops o ->
       c_loop g = true /\ c_with g = false) /\
    (forall hb ss u o u' g, execs w n hb ss u = Some (o, u') -> supported g ss = true -> loops o ->
       c_loop g = true /\ c_with g = false) /\
    (forall hb hs e u o u' g, exech w n hb hs e u = Some (o, u') -> supported_h g hs = true -> loops o ->
       c_loop g = true /\ c_with g = false).
  Proof.
    induction n as [|n (IH1 & IH2 & IH3)]; [repeat split; intros; discriminate|].
    split; [|split].
    - intros hb s u o u' g H F L. destruct s; cbn [exec] in H; cbn [supported_s] in F.
      + injection H as <- <-. destruct L.
      + destruct (call w a u) as [? []]; injection H as <- <-; destruct L.
      + destruct (blookup hb x); [|discriminate]. injection H as <- <-. destruct L.
      + apply andb_prop in F. destruct F as [F1 F2]. destruct (cond w c u); eapply IH2; eauto.
      + pose proof F as F'. apply andb_prop in F'. destruct F' as [F1 F2].
        destruct (cond w c u).
        * destruct (execs w n hb body u) as [[o1 u1]|] eqn:B; [|discriminate].
          destruct o1; try (injection H as <- <-; destruct L).
          -- eapply IH1; eauto.
          -- eapply IH1; eauto.
        * apply (IH2 _ _ _ _ _ _ H F2) in L. cbn in L. destruct L. discriminate.
      + apply andb_prop in F. destruct F as [F _]. apply andb_prop in F. destruct F as [F1 F2].
        apply negb_true_iff in F2. auto.
      + apply andb_prop in F. destruct F as [F _]. apply andb_prop in F. destruct F as [F1 F2].
        apply negb_true_iff in F2. auto.
      + injection H as <- <-. destruct L.
      + injection H as <- <-. destruct L.
      + apply andb_prop in F. destruct F as [F F5]. apply andb_prop in F. destruct F as [F F4].
        apply andb_prop in F. destruct F as [F F3]. apply andb_prop in F. destruct F as [F1 F2].
        set (r := match execs w n hb body u with
                  | Some (ONormal, u') => execs w n hb orelse u'
                  | Some (ORaise e, u') => exech w n hb hs e u'
                  | r => r end) in *.
        destruct r as [[o1 u1]|] eqn:R; [|discriminate].
        assert (loops o1 -> c_loop g = true /\ c_with g = false) as G.
        { intros L1. subst r. destruct (execs w n hb body u) as [[o3 u3]|] eqn:B; [|discriminate].
          destruct o3; try (injection R as <- <-; exact (IH2 _ _ _ _ _ _ B F1 L1)).
          - exact (IH2 _ _ _ _ _ _ R F3 L1).
          - exact (IH3 _ _ _ _ _ _ _ R F2 L1). }
        destruct (execs w n hb fin u1) as [[o2 u2]|] eqn:X; [|discriminate].
        assert (~ loops o2) as NL.
        { destruct fin as [|f0 f1].
          - destruct n; [discriminate|]. cbn [execs] in X. injection X as <- <-. exact (fun z => z).
          - cbn [is_nil negb orb] in F4. apply andb_prop in F4. destruct F4 as [F4 _].
            apply andb_prop in F4. destruct F4 as [F4 _]. apply andb_prop in F4.
            exact (proj2 (fin_no_loop n) _ _ _ _ _ X (proj2 F4)). }
        destruct o2; injection H as <- <-; auto; exfalso; apply NL; exact L.
      + apply andb_prop in F. destruct F as [F F4].
        destruct (execs w n hb body (enter w m u)) as [[o1 u1]|] eqn:B; [|discriminate].
        assert (loops o1) as L1.
        { destruct o1; try (injection H as <- <-; exact L).
          destruct (exit w m (Some e) u1) as [? []]; injection H as <- <-; destruct L. }
        apply (IH2 _ _ _ _ _ _ B F4) in L1. cbn in L1. destruct L1. discriminate.
    - intros hb ss u o u' g H F L. destruct ss; cbn [execs] in H; cbn [supported] in F.
      + injection H as <- <-. destruct L.
      + apply andb_prop in F. destruct F as [F1 F2].
        destruct (exec w n hb s u) as [[o1 u1]|] eqn:E; [|discriminate].
        destruct o1; try (injection H as <- <-; eapply IH1; eauto; fail).
        eapply IH2; eauto.
    - intros hb hs e u o u' g H F L. destruct hs; cbn [exech] in H; cbn [supported_h] in F.
      + injection H as <- <-. destruct L.
      + apply andb_prop in F. destruct F as [F1 F2]. destruct (isinst w e c).
        * exact (IH2 _ _ _ _ _ _ H F1 L).
        * exact (IH3 _ _ _ _ _ _ _ H F2 L).
  Qed.

  (** ** Finally blocks *)
  Definition ret_config (E : env) (vs : vstate U) : config U :=
    match first_fw E with
    | Some t => jump P (LFinally t) (set_code t 1 vs)
    | None => jump P LEnd vs
    end.

  Lemma fin_sim n :
    (forall hb s u o u', exec w n hb s u = Some (o, u') -> fin_ok_s s = true ->
       forall E lp k rest vs, vu vs = u ->
       (o = ONormal /\ steps (Run (inl_s declared E lp [] s ++ rest) k vs) (Run rest k (set_u u' vs))) \/
       (exists v, o = OReturn (Some v) /\
          steps (Run (inl_s declared E lp [] s ++ rest) k vs)
                (ret_config E (set_res (Some v) (set_u u' vs))))) /\
    (forall hb ss u o u', execs w n hb ss u = Some (o, u') -> fin_ok ss = true ->
       forall E lp k rest vs, vu vs = u ->
       (o = ONormal /\ steps (Run (inl_ss declared E lp [] ss ++ rest) k vs) (Run rest k (set_u u' vs))) \/
       (exists v, o = OReturn (Some v) /\
          steps (Run (inl_ss declared E lp [] ss ++ rest) k vs)
                (ret_config E (set_res (Some v) (set_u u' vs))))).
  Proof.
    induction n as [|n (IH1 & IH2)]; [split; intros; discriminate|]. split.
    - intros hb s u o u' H F E lp k rest vs V.
      destruct s; cbn [exec] in H; cbn [fin_ok_s] in F; try discriminate.
      + injection H as <- <-. left. split; [reflexivity|]. subst u. apply steps_one. reflexivity.
      + apply andb_prop in F. destruct F as [F1 F2].
        assert (forall b, fin_ok b = true -> execs w n hb b u = Some (o, u') ->
                  (if cond w c (vu vs) then s1 else s2) = b ->
          (o = ONormal /\ steps (Run (inl_s declared E lp [] (SIf c s1 s2) ++ rest) k vs) (Run rest k (set_u u' vs))) \/
          (exists v, o = OReturn (Some v) /\
             steps (Run (inl_s declared E lp [] (SIf c s1 s2) ++ rest) k vs)
                   (ret_config E (set_res (Some v) (set_u u' vs))))) as G.
        { intros b Fb Hb Eb.
          assert (steps (Run (inl_s declared E lp [] (SIf c s1 s2) ++ rest) k vs)
                        (Run (inl_ss declared E lp [] b ++ []) (KSeq rest k) vs)) as S0.
          { apply steps_one. cbn [inl_s app vstep ceval]. rewrite app_nil_r. rewrite <- Eb.
            destruct (cond w c (vu vs)); reflexivity. }
          destruct (IH2 _ _ _ _ _ Hb Fb E lp (KSeq rest k) [] vs V) as [[-> S1]|(v & -> & S1)].
          - left. split; [reflexivity|]. eapply steps_trans; [exact S0|].
            eapply steps_trans; [exact S1|]. apply steps_one. reflexivity.
          - right. exists v. split; [reflexivity|]. eapply steps_trans; eauto. }
        rewrite V in G. destruct (cond w c u); [apply (G s1)|apply (G s2)]; auto.
      + destruct v as [v|]; [|discriminate]. injection H as <- <-. right.
        exists (value w v u). split; [reflexivity|]. subst u. cbn [inl_s app].
        eapply steps_step; [reflexivity|]. unfold ret_config.
        destruct (first_fw E) as [t|]; cbn [app].
        * eapply steps_step; [reflexivity|]. apply steps_one. destruct vs; reflexivity.
        * apply steps_one. destruct vs; reflexivity.
    - intros hb ss u o u' H F E lp k rest vs V.
      destruct ss; cbn [execs] in H; cbn [fin_ok] in F.
      + injection H as <- <-. left. split; [reflexivity|]. subst u. destruct vs; apply steps_refl.
      + apply andb_prop in F. destruct F as [F1 F2].
        destruct (exec w n hb s u) as [[o1 u1]|] eqn:X; [|discriminate].
        cbn [inl_ss]. rewrite <- app_assoc.
        destruct (IH1 _ _ _ _ _ X F1 E lp k (inl_ss declared E lp [] ss ++ rest) vs V)
          as [[-> S1]|(v & -> & S1)].
        * destruct (IH2 _ _ _ _ _ H F2 E lp k rest (set_u u1 vs) eq_refl) as [[-> S2]|(v & -> & S2)].
          -- left. split; [reflexivity|]. eapply steps_trans; [exact S1|]. exact S2.
          -- right. exists v. split; [reflexivity|]. eapply steps_trans; [exact S1|]. exact S2.
        * injection H as <- <-. right. exists v. split; [reflexivity|]. exact S1.
  Qed.

  Lemma run_seq_ifs v t cs : forall i rest k vs e, get_err v vs = Some e ->
    steps (Run (map (fun p => VIf (CErrIs v (snd p)) [VGoto (LHandler t (fst p))] [])
                    (combine (seq i (length cs)) cs) ++ rest) k vs)
          (match match_h cs i e with
           | Some j => jump P (LHandler t j) vs
           | None => Run rest k vs
           end).
  Proof.
    induction cs as [|c cs IH]; intros i rest k vs e G; cbn [length seq combine map app match_h].
    - apply steps_refl.
    - destruct (isinst w e c) eqn:I.
      + eapply steps_step.
        { cbn [vstep ceval snd]. rewrite G, I. reflexivity. }
        apply steps_one. reflexivity.
      + eapply steps_step.
        { cbn [vstep ceval snd]. rewrite G, I. reflexivity. }
        eapply steps_step; [reflexivity|]. apply IH. exact G.
  Qed.

  Lemma run_except_walk t : forall E tail k vs e, no_with E -> verr vs t = Some e ->
    match catch E e with
    | CHandler b i => steps (Run (except_walk t E ++ tail) k vs) (jump P (LHandler b i) vs)
    | CFinally b => steps (Run (except_walk t E ++ tail) k vs)
                          (jump P (LFinally b) (set_code b (vcode vs t) vs))
    | CEnd => steps (Run (except_walk t E ++ tail) k vs) (Run tail k vs)
    end.
  Proof.
    induction E as [|b E IH]; intros tail k vs e W G; cbn [except_walk catch].
    - apply steps_refl.
    - assert (no_with E) as W' by (intros x Hx; apply W; right; exact Hx).
      rewrite (W b (or_introl eq_refl)), orb_false_r.
      pose proof (fun r => run_seq_ifs (Some t) (tid b) (ths b) 0 r k vs e G) as S.
      fold (seq_ifs (Some t) (tid b) (ths b)) in S.
      rewrite <- app_assoc.
      destruct (match_h (ths b) 0 e) as [j|]; [apply S|].
      destruct (tfin b).
      + eapply steps_trans; [apply S|]. eapply steps_step; [reflexivity|].
        apply steps_one. reflexivity.
      + specialize (IH tail k vs e W' G).
        destruct (catch E e); (eapply steps_trans; [apply S|exact IH]).
  Qed.

  Definition code_num (o : outcome) : nat :=
    match o with ONormal => 0 | OReturn _ => 1 | ORaise _ => 2 | OBreak => 3 | OContinue => 4 end.

  Lemma run_finally_end E lp t o1 rest k vs :
    no_with E -> vcode vs t = code_num o1 ->
    (forall e, o1 = ORaise e -> verr vs t = Some e) -> vmerr vs = None ->
    (loops o1 -> exists i, lp = Some i) ->
    match o1 with
    | ONormal => steps (Run (finally_end declared E lp t ++ rest) k vs) (jump P (LPost t) vs)
    | _ => exists vs', reach (Run (finally_end declared E lp t ++ rest) k vs) [] KStop E lp o1 vs' /\
             vu vs' = vu vs /\ vres vs' = vres vs /\ vmerr vs' = err_of E o1 /\
             (forall x, vcode vs' x = with_code (tcode E lp o1) (vcode vs) x) /\
             (forall x, verr vs' x = verr vs x)
    end.
  Proof.
    intros W C R M L.
    set (return_block := match first_fin E with
                         | Some t' => [VCopyCode t' t; VGoto (LFinally t')]
                         | None => [VGoto LEnd] end).
    set (except_block := except_walk t E ++
       (if declared then [VSetErr (Some t); VGoto LEnd] else [VFail; VGoto LEnd])).
    set (if_return := [VIf (CCode t 1) return_block [VGoto (LPost t)]]).
    set (if_except := [VIf (CCode t 2) except_block if_return]).
    (* reaching if_except when the code is not 3 or 4 *)
    assert (~ loops o1 -> exists r' k', steps (Run (finally_end declared E lp t ++ rest) k vs)
                                             (Run (if_except ++ r') k' vs)) as S0.
    { intros NL. unfold finally_end. destruct lp as [i|].
      - exists [], (KSeq [] (KSeq rest k)). rewrite app_nil_r. eapply steps_step.
        { cbn [app vstep ceval]. rewrite C.
          replace (code_num o1 =? 4) with false by (destruct o1; try reflexivity; destruct NL; exact I).
          reflexivity. }
        eapply steps_step.
        { cbn [vstep ceval]. rewrite C.
          replace (code_num o1 =? 3) with false by (destruct o1; try reflexivity; destruct NL; exact I).
          reflexivity. }
        apply steps_refl.
      - exists rest, k. apply steps_refl. }
    assert (code_num o1 <> 2 -> ~ loops o1 -> exists k', steps (Run (finally_end declared E lp t ++ rest) k vs)
                                             (Run if_return k' vs)) as S1.
    { intros N2 NL. destruct (S0 NL) as (r' & k' & S). exists (KSeq r' k').
      eapply steps_trans; [exact S|]. apply steps_one. unfold if_except. cbn [app vstep ceval].
      rewrite C. destruct (Nat.eqb_spec (code_num o1) 2); [congruence|reflexivity]. }
    pose proof (first_fw_none_with E W) as FW.
    destruct o1.
    - destruct (S1 (ltac:(discriminate)) (fun x => x)) as [k' S]. eapply steps_trans; [exact S|].
      eapply steps_step.
      { unfold if_return. cbn [vstep ceval]. rewrite C. reflexivity. }
      apply steps_one. reflexivity.
    - destruct (S1 (ltac:(discriminate)) (fun x => x)) as [k' S].
      assert (steps (Run (finally_end declared E lp t ++ rest) k vs)
                    (Run return_block (KSeq [] k') vs)) as S2.
      { eapply steps_trans; [exact S|]. apply steps_one. unfold if_return. cbn [vstep ceval].
        rewrite C. reflexivity. }
      unfold reach, tcode, target. rewrite FW. unfold return_block in S2.
      destruct (first_fin E) as [t'|].
      + exists (set_code t' 1 vs). repeat split; auto.
        eapply steps_trans; [exact S2|]. eapply steps_step; [reflexivity|]. rewrite C.
        apply steps_one. reflexivity.
      + exists vs. repeat split; auto.
        eapply steps_trans; [exact S2|]. apply steps_one. reflexivity.
    - destruct (S0 (fun x => x)) as (r' & k' & S).
      assert (steps (Run (finally_end declared E lp t ++ rest) k vs)
                    (Run except_block (KSeq r' k') vs)) as S2.
      { eapply steps_trans; [exact S|]. apply steps_one. unfold if_except. cbn [app vstep ceval].
        rewrite C. reflexivity. }
      specialize (R e eq_refl).
      pose proof (run_except_walk t E
        (if declared then [VSetErr (Some t); VGoto LEnd] else [VFail; VGoto LEnd])
        (KSeq r' k') vs e W R) as S3. fold except_block in S3.
      unfold reach, tcode, target, err_of. destruct (catch E e).
      + exists vs. repeat split; auto. eapply steps_trans; eauto.
      + exists (set_code t0 2 vs). rewrite C in S3. repeat split; auto. eapply steps_trans; eauto.
      + destruct declared.
        * exists (set_err None (Some e) vs). repeat split; auto.
          eapply steps_trans; [exact S2|]. eapply steps_trans; [exact S3|].
          eapply steps_step; [reflexivity|]. cbn [get_err]. rewrite R. apply steps_one. reflexivity.
        * exists (set_err None (Some e) vs). repeat split; auto.
          eapply steps_trans; [exact S2|]. eapply steps_trans; [exact S3|].
          apply steps_one. reflexivity.
    - destruct (L I) as [i ->].
      unfold reach, tcode, target. unfold finally_end.
      match goal with |- context [VIf (CCode t 3) ?lb _] => set (LB := lb) end.
      assert (forall b r, steps (Run ([VIf (CCode t 4) b [VIf (CCode t 3) LB r]] ++ rest) k vs)
                    (Run LB (KSeq [] (KSeq rest k)) vs)) as S2.
      { intros b r. eapply steps_step.
        { cbn [app vstep ceval]. rewrite C. cbn [code_num Nat.eqb]. reflexivity. }
        eapply steps_step.
        { cbn [vstep ceval]. rewrite C. cbn [code_num Nat.eqb]. reflexivity. }
        apply steps_refl. }
      unfold LB in *. clear LB. destruct (first_fin (same_loop (Some i) E)) as [t'|].
      + exists (set_code t' 3 vs). repeat split; auto.
        eapply steps_trans; [apply S2|]. eapply steps_step; [reflexivity|]. rewrite C.
        apply steps_one. reflexivity.
      + exists vs. repeat split; auto.
        eapply steps_trans; [apply S2|]. apply steps_one. reflexivity.
    - destruct (L I) as [i ->].
      unfold reach, tcode, target. unfold finally_end.
      match goal with |- context [VIf (CCode t 4) ?lb _] => set (LB := lb) end.
      assert (forall r, steps (Run ([VIf (CCode t 4) LB r] ++ rest) k vs)
                    (Run LB (KSeq rest k) vs)) as S2.
      { intros r. apply steps_one. cbn [app vstep ceval]. rewrite C. reflexivity. }
      unfold LB in *. clear LB. destruct (first_fin (same_loop (Some i) E)) as [t'|].
      + exists (set_code t' 4 vs). repeat split; auto.
        eapply steps_trans; [apply S2|]. eapply steps_step; [reflexivity|]. rewrite C.
        apply steps_one. reflexivity.
      + exists vs. repeat split; auto.
        eapply steps_trans; [apply S2|]. apply steps_one. reflexivity.
  Qed.

  (** From the finally label to the end of the statement. *)
  Lemma run_finally n t hb f E lp o1 o2 u1 u2 vs1 post0 rest k :
    at_ P KStop ([VLabel (LFinally t)] ++ inl_ss declared E lp [] f ++ finally_end declared E lp t ++ post0) KStop ->
    at_ P KStop (VLabel (LPost t) :: rest) k ->
    execs w n hb f u1 = Some (o2, u2) -> fin_ok f = true -> no_with E ->
    vcode vs1 t = code_num o1 -> (forall e, o1 = ORaise e -> verr vs1 t = Some e) ->
    vu vs1 = u1 -> vres vs1 = res_of o1 -> vmerr vs1 = None ->
    (loops o1 -> exists i, lp = Some i) ->
    let o := match o2 with ONormal => o1 | _ => o2 end in
    (forall e, o = ORaise e -> o1 = ORaise e) /\
    exists vs', reach (jump P (LFinally t) vs1) rest k E lp o vs' /\
      vu vs' = u2 /\ vres vs' = res_of o /\ vmerr vs' = err_of E o /\
      (forall x, vcode vs' x = with_code (tcode E lp o) (vcode vs1) x) /\
      (forall x, verr vs' x = verr vs1 x).
  Proof.
    intros A1 A2 X F W C R V Rs M L o.
    rewrite (jump_at (LFinally t) _ KStop vs1 A1).
    destruct (proj2 (fin_sim n) _ _ _ _ _ X F E lp KStop (finally_end declared E lp t ++ post0) vs1 V)
      as [[-> S]|(v & -> & S)]; cbn in o; subst o.
    - split; [auto|].
      pose proof (run_finally_end E lp t o1 post0 KStop (set_u u2 vs1) W C R M L) as D.
      assert (forall (c : config U) o vs', o <> ONormal -> reach c [] KStop E lp o vs' ->
                reach c rest k E lp o vs') as RA by (intros; eapply reach_abrupt; eauto).
      destruct o1.
      + exists (set_u u2 vs1). repeat split; auto. cbn [reach].
        eapply steps_trans; [exact S|]. eapply steps_trans; [exact D|].
        rewrite (jump_at _ _ _ _ A2). apply steps_refl.
      + destruct D as (vs' & D1 & D2 & D3 & D4 & D5 & D6). exists vs'.
        split; [eapply reach_steps; [exact S|]; apply RA; [discriminate|exact D1]|].
        repeat split; auto. rewrite D3. exact Rs.
      + destruct D as (vs' & D1 & D2 & D3 & D4 & D5 & D6). exists vs'.
        split; [eapply reach_steps; [exact S|]; apply RA; [discriminate|exact D1]|].
        repeat split; auto. rewrite D3. exact Rs.
      + destruct D as (vs' & D1 & D2 & D3 & D4 & D5 & D6). exists vs'.
        split; [eapply reach_steps; [exact S|]; apply RA; [discriminate|exact D1]|].
        repeat split; auto. rewrite D3. exact Rs.
      + destruct D as (vs' & D1 & D2 & D3 & D4 & D5 & D6). exists vs'.
        split; [eapply reach_steps; [exact S|]; apply RA; [discriminate|exact D1]|].
        repeat split; auto. rewrite D3. exact Rs.
    - split; [discriminate|].
      unfold reach, tcode, target. unfold ret_config in S.
      destruct (first_fw E) as [t'|].
      + exists (set_code t' 1 (set_res (Some v) (set_u u2 vs1))). repeat split; auto.
      + exists (set_res (Some v) (set_u u2 vs1)). repeat split; auto.
  Qed.

  (** ** The simulation *)
  Definition sim_s (n : nat) : Prop :=
    forall s g E lp al hb u o u' k rest vs,
      exec w n hb s u = Some (o, u') -> supported_s g s = true -> NoDup (ids_s s) ->
      pre g E lp al hb (ids_s s) u vs ->
      at_ P KStop (inl_s declared E lp al s ++ rest) k -> dloc (def_s declared E lp al s) ->
      lands (Run (inl_s declared E lp al s ++ rest) k vs) rest k E lp o (ids_s s) (indirect_s s) u' vs.
  Definition sim_ss (n : nat) : Prop :=
    forall ss g E lp al hb u o u' k rest vs,
      execs w n hb ss u = Some (o, u') -> supported g ss = true -> NoDup (ids_ss ss) ->
      pre g E lp al hb (ids_ss ss) u vs ->
      at_ P KStop (inl_ss declared E lp al ss ++ rest) k -> dloc (def_ss declared E lp al ss) ->
      lands (Run (inl_ss declared E lp al ss ++ rest) k vs) rest k E lp o (ids_ss ss) (indirect ss) u' vs.
  Definition sim_h (n : nat) : Prop :=
    forall hs g E lp al hb t i f e u o u' vs,
      exech w n hb hs e u = Some (o, u') -> supported_h g hs = true -> NoDup (ids_h hs) ->
      pre g E lp al hb (ids_h hs) u vs -> ~ In t (ids_h hs) -> ~ In t (map tid E) ->
      (names_h hs <> [] -> verr vs t = Some e) ->
      dloc (handler_pieces declared E lp al t i f hs) -> dloc (def_h declared E lp al t hs) ->
      (match_h (handler_classes hs) i e = None /\ o = ORaise e /\ u' = u) \/
      (exists j rest, match_h (handler_classes hs) i e = Some j /\
         lands (jump P (LHandler t j) vs) (handler_end t f ++ rest) KStop E lp o (ids_h hs)
               (indirect_h hs) u' vs).

  Lemma post_after E lp o is2 is ind2 ind u' vs vs1 vs' :
    (forall t, ~ In t is -> vcode vs1 t = vcode vs t) ->
    (forall t, ~ In t is -> errvar E <> Some t -> verr vs1 t = verr vs t) ->
    incl is2 is -> (ind = false -> ind2 = false) ->
    post E lp o is2 ind2 u' vs1 vs' -> post E lp o is ind u' vs vs'.
  Proof.
    intros F1 F2 I J [Qu Qr Qe Qc Qs Qd]. constructor; [exact Qu|exact Qr|exact Qe|..].
    - intros t H. rewrite Qc by auto. unfold with_code.
      destruct (tcode E lp o) as [[t0 m]|]; [destruct (t =? t0); [reflexivity|]|]; auto.
    - intros t H H'. rewrite Qs by auto. auto.
    - intros D. apply Qd. apply J. exact D.
  Qed.

  Lemma post_ind E lp o is ind ind' u' vs vs' :
    (forall e, o = ORaise e -> ind' = true) ->
    post E lp o is ind u' vs vs' -> post E lp o is ind' u' vs vs'.
  Proof.
    intros J [Qu Qr Qe Qc Qs Qd]. constructor; auto.
    intros D e h E' Ho. rewrite (J e Ho) in D. discriminate.
  Qed.

  Lemma names_frame names E al hb is is' vs vs1 :
    incl is' is -> names_ok names E al hb is vs ->
    (forall t, ~ In t is -> errvar E <> Some t -> verr vs1 t = verr vs t) ->
    names_ok names E al hb is' vs1.
  Proof.
    intros I H F x Hx. destruct (H x Hx) as (t & e & A & B & C & D & G).
    exists t, e. repeat split; auto. rewrite F; auto.
    intros X. apply G. apply errvar_in. exact X.
  Qed.

  Lemma first_fin_app a b : first_fin (a ++ b) = match first_fin a with Some t => Some t | None => first_fin b end.
  Proof. induction a as [|x a IH]; cbn; [reflexivity|]. destruct (tfin x); [reflexivity|exact IH]. Qed.
  Lemma first_fin_none a : existsb tfin a = false -> first_fin a = None.
  Proof. induction a as [|x a IH]; cbn; [reflexivity|]. destruct (tfin x); [discriminate|exact IH]. Qed.
  Lemma first_fin_some a : existsb tfin a = true -> exists t, first_fin a = Some t.
  Proof. induction a as [|x a IH]; cbn; [discriminate|]. destruct (tfin x); [eauto|exact IH]. Qed.

  (** Break and continue in the fragment go to the same place. *)
  Lemma loop_target g E lp : rel g E lp ->
    c_loop g && negb (c_with g) && (c_loop_fin g || negb (c_fin g)) = true ->
    (exists i, lp = Some i) /\ first_fw E = first_fin (same_loop lp E).
  Proof.
    intros [R1 R2 R3 R4] H. apply andb_prop in H. destruct H as [H H3]. apply andb_prop in H.
    destruct H as [H1 H2]. apply negb_true_iff in H2.
    destruct (R4 H1) as (L & L1 & E2 & L2). split; [exact L|].
    rewrite first_fw_none_with by auto. rewrite L1 in H3.
    set (SL := same_loop lp E) in *. clearbody SL. subst E.
    rewrite first_fin_app. apply orb_prop in H3. destruct H3 as [H3|H3].
    - destruct (first_fin_some _ H3) as [t Ht]. rewrite Ht. reflexivity.
    - apply negb_true_iff in H3. rewrite R3, existsb_app in H3. apply orb_false_iff in H3.
      rewrite !first_fin_none by apply H3. reflexivity.
  Qed.

  Lemma incl_app_l {A} (a b : list A) : incl a (a ++ b).
  Proof. intros x H. apply in_or_app. auto. Qed.
  Lemma incl_app_r {A} (a b : list A) : incl b (a ++ b).
  Proof. intros x H. apply in_or_app. auto. Qed.

  Lemma NoDup_app_inv {A} (a b : list A) : NoDup (a ++ b) -> NoDup a /\ NoDup b.
  Proof.
    induction a as [|x a IH]; cbn; intros H; [split; [constructor|exact H]|].
    inversion H as [|? ? H1 H2]; subst. destruct (IH H2). split; [|assumption].
    constructor; [|assumption]. intros X. apply H1. apply in_or_app. auto.
  Qed.

  Lemma post_normal_lp E lp lp' is ind u' vs vs' :
    post E lp ONormal is ind u' vs vs' -> post E lp' ONormal is ind u' vs vs'.
  Proof. intros []. constructor; auto. Qed.

  Lemma lands_normal c0 rest k E lp is ind vs vs' :
    steps c0 (Run rest k vs') -> vres vs' = None -> vmerr vs' = None ->
    (forall t, ~ In t is -> vcode vs' t = vcode vs t) ->
    (forall t, ~ In t is -> errvar E <> Some t -> verr vs' t = verr vs t) ->
    lands c0 rest k E lp ONormal is ind (vu vs') vs.
  Proof.
    intros S R M C X. exists vs'. split; [exact S|]. constructor; auto. intros; discriminate.
  Qed.

  Lemma sim_if n : sim_ss n -> forall c s1 s2 g E lp al hb u o u' k rest vs,
      execs w n hb (if cond w c u then s1 else s2) u = Some (o, u') ->
      supported_s g (SIf c s1 s2) = true -> NoDup (ids_s (SIf c s1 s2)) ->
      pre g E lp al hb (ids_s (SIf c s1 s2)) u vs ->
      at_ P KStop (inl_s declared E lp al (SIf c s1 s2) ++ rest) k ->
      dloc (def_s declared E lp al (SIf c s1 s2)) ->
      lands (Run (inl_s declared E lp al (SIf c s1 s2) ++ rest) k vs) rest k E lp o
            (ids_s (SIf c s1 s2)) (indirect_s (SIf c s1 s2)) u' vs.
  Proof.
    intros IH c s1 s2 g E lp al hb u o u' k rest vs H F N Pr A D.
    cbn [supported_s ids_s indirect_s def_s] in *.
    apply andb_prop in F. destruct F as [F1 F2]. apply NoDup_app_inv in N. destruct N as [N1 N2].
    pose proof (p_u _ _ _ _ _ _ _ _ Pr) as Hu.
    assert (forall b, execs w n hb b u = Some (o, u') -> supported g b = true -> NoDup (ids_ss b) ->
              incl (ids_ss b) (ids_ss s1 ++ ids_ss s2) ->
              (indirect s1 || indirect s2 = false -> indirect b = false) ->
              at_ P KStop (inl_ss declared E lp al b ++ []) (KSeq rest k) ->
              dloc (def_ss declared E lp al b) -> (if cond w c u then s1 else s2) = b ->
      lands (Run (inl_s declared E lp al (SIf c s1 s2) ++ rest) k vs) rest k E lp o
            (ids_ss s1 ++ ids_ss s2) (indirect s1 || indirect s2) u' vs) as G.
    { intros b Hb Fb Nb Ib Jb Ab Db Eb.
      destruct (IH b g E lp al hb u o u' (KSeq rest k) [] vs Hb Fb Nb (pre_incl _ _ _ _ _ _ _ _ _ Ib Pr) Ab Db)
        as (vs' & R & Q).
      exists vs'. split; [|eapply post_incl; eauto].
      assert (steps (Run (inl_s declared E lp al (SIf c s1 s2) ++ rest) k vs)
                    (Run (inl_ss declared E lp al b ++ []) (KSeq rest k) vs)) as S0.
      { apply steps_one. cbn [inl_s app vstep ceval]. rewrite app_nil_r, Hu. rewrite <- Eb.
        destruct (cond w c u); reflexivity. }
      eapply reach_steps; [exact S0|].
      destruct o; try (eapply reach_abrupt; [discriminate|exact R]).
      cbn [reach] in *. eapply steps_trans; [exact R|]. apply steps_one. reflexivity. }
    cbn [inl_s app] in A.
    destruct (cond w c u).
    - apply (G s1); auto using incl_app_l.
      + intros X. apply orb_false_iff in X. apply X.
      + rewrite app_nil_r. eapply at_trans; [exact A|]. apply at_if1, at_here.
      + eapply dloc_l. exact D.
    - apply (G s2); auto using incl_app_r.
      + intros X. apply orb_false_iff in X. apply X.
      + rewrite app_nil_r. eapply at_trans; [exact A|]. apply at_if2, at_here.
      + eapply dloc_r. exact D.
  Qed.

  Lemma fresh_loop E lp i is : fresh E lp (i :: is) -> ~ In i is -> fresh E (Some i) is.
  Proof.
    intros [H1 H2] NI. split.
    - intros t Ht. destruct (H1 t Ht) as [A B]. split.
      + intros X. apply A. right. exact X.
      + intros j Hj X. apply (B j Hj). right. exact X.
    - intros j [= <-]. exact NI.
  Qed.

  Lemma fresh_same_loop E lp i is : fresh E lp (i :: is) -> same_loop (Some i) E = [].
  Proof.
    intros [H _]. cbn. induction E as [|t E IH]; [reflexivity|]. cbn.
    destruct (H t (or_introl eq_refl)) as [_ B].
    assert (match tloop t with Some j => i =? j | None => false end = false) as ->.
    { destruct (tloop t) as [j|]; [|reflexivity]. destruct (Nat.eqb_spec i j) as [->|]; [|reflexivity].
      destruct (B j eq_refl). left. reflexivity. }
    apply IH. intros t' Ht'. apply H. right. exact Ht'.
  Qed.

  Lemma target_lp E lp lp' o : ~ loops o -> target E lp o = target E lp' o.
  Proof. destruct o; cbn; intros H; try reflexivity; destruct H; exact I. Qed.

  Lemma lands_lp c0 rest k rest' k' E lp lp' o is is' ind ind' u' vs :
    ~ loops o -> o <> ONormal -> incl is is' -> (ind' = false -> ind = false) ->
    lands c0 rest k E lp o is ind u' vs -> lands c0 rest' k' E lp' o is' ind' u' vs.
  Proof.
    intros L N I J (vs' & R & Q). exists vs'. split.
    - unfold reach in *. rewrite (target_lp E lp' lp o L). destruct o; [congruence|..]; exact R.
    - apply (post_incl _ _ _ _ is' _ ind') in Q; auto. destruct Q as [Qu Qr Qe Qc Qs Qd].
      constructor; auto. unfold tcode in *. rewrite (target_lp E lp' lp o L). exact Qc.
  Qed.

  Lemma sim_while n : sim_s n -> sim_ss n -> forall i c b ob g E lp al hb u o u' k rest vs,
      exec w (S n) hb (SWhile i c b ob) u = Some (o, u') ->
      supported_s g (SWhile i c b ob) = true -> NoDup (ids_s (SWhile i c b ob)) ->
      pre g E lp al hb (ids_s (SWhile i c b ob)) u vs ->
      at_ P KStop (inl_s declared E lp al (SWhile i c b ob) ++ rest) k ->
      dloc (def_s declared E lp al (SWhile i c b ob)) ->
      lands (Run (inl_s declared E lp al (SWhile i c b ob) ++ rest) k vs) rest k E lp o
            (ids_s (SWhile i c b ob)) (indirect_s (SWhile i c b ob)) u' vs.
  Proof.
    intros IHs IH i c b ob g E lp al hb u o u' k rest vs H F N Pr A D.
    pose proof F as F0. pose proof N as N0. pose proof Pr as Pr0. pose proof A as A0. pose proof D as D0.
    cbn [exec] in H. cbn [supported_s] in F. apply andb_prop in F. destruct F as [F1 F2].
    cbn [ids_s] in N. inversion N as [|? ? N1 N2]; subst.
    apply NoDup_app_inv in N2. destruct N2 as [N2 N3].
    cbn [def_s] in D.
    set (B := inl_ss declared E (Some i) al b ++ [VLabel (LLoopEnd i)]).
    set (tail := [VLabel (LPostLoop i); VNullRes] ++ (if declared then [VNullErr] else [])).
    assert (inl_s declared E lp al (SWhile i c b ob) ++ rest =
            VWhile c B :: inl_ss declared E (Some i) al ob ++ tail ++ rest) as EQ.
    { cbn [inl_s]. fold B. cbn [app]. rewrite <- !app_assoc. reflexivity. }
    rewrite EQ in *. set (R := inl_ss declared E (Some i) al ob ++ tail ++ rest) in *.
    pose proof (p_u _ _ _ _ _ _ _ _ Pr) as Hu.
    destruct Pr as [Prel Pwf Pfr Pnm _ Pres Perr].
    pose proof (fresh_same_loop _ _ _ _ Pfr) as SL.
    assert (rel {| c_handlers := c_handlers g; c_with := c_with g; c_fin := c_fin g;
                   c_loop := true; c_loop_fin := false; c_names := c_names g |} E (Some i)) as RB.
    { destruct Prel. constructor; cbn [c_handlers c_with c_fin c_loop c_loop_fin]; auto. intros _. split; [eauto|]. rewrite SL.
      split; [reflexivity|]. exists E. reflexivity. }
    assert (rel {| c_handlers := c_handlers g; c_with := c_with g; c_fin := c_fin g;
                   c_loop := false; c_loop_fin := false; c_names := c_names g |} E (Some i)) as RO.
    { destruct Prel. constructor; cbn [c_handlers c_with c_fin c_loop c_loop_fin]; auto. discriminate. }
    assert (fresh E (Some i) (ids_ss b ++ ids_ss ob)) as FR by (eapply fresh_loop; eauto).
    assert (incl (ids_ss b ++ ids_ss ob) (i :: ids_ss b ++ ids_ss ob)) as I0 by (intros x X; right; exact X).
    assert (incl (ids_ss b) (ids_ss b ++ ids_ss ob)) as I1 by apply incl_app_l.
    assert (incl (ids_ss ob) (ids_ss b ++ ids_ss ob)) as I2 by apply incl_app_r.
    assert (incl (ids_ss b) (ids_s (SWhile i c b ob))) as I1' by (eapply incl_tran; eauto).
    assert (incl (ids_ss ob) (ids_s (SWhile i c b ob))) as I2' by (eapply incl_tran; eauto).
    assert (at_ P KStop (VLabel (LLoopEnd i) :: []) (KLoop c B R k)) as AE.
    { eapply at_trans; [exact A|]. apply at_while. apply at_app. }
    assert (at_ P KStop (tail ++ rest) k) as AT.
    { eapply at_trans; [exact A|]. apply at_next. unfold R. apply at_app. }
    assert (forall s, vres s = None -> vmerr s = None ->
              exists s', steps (Run (tail ++ rest) k s) (Run rest k s') /\
              vu s' = vu s /\ vres s' = None /\ vmerr s' = None /\ vcode s' = vcode s /\ verr s' = verr s) as ST.
    { intros s Rs Ms. unfold tail. destruct declared.
      - exists (set_err None None (set_res None s)). repeat split.
        eapply steps_step; [reflexivity|]. eapply steps_step; [reflexivity|]. apply steps_one. reflexivity.
      - exists (set_res None s). repeat split; auto.
        eapply steps_step; [reflexivity|]. apply steps_one. reflexivity. }
    assert (jump P (LPostLoop i) = fun s : vstate U => jump P (LPostLoop i) s) as _ by reflexivity.
    destruct (cond w c u) eqn:CU.
    - assert (steps (Run (VWhile c B :: R) k vs)
                    (Run (inl_ss declared E (Some i) al b ++ [VLabel (LLoopEnd i)]) (KLoop c B R k) vs)) as S0.
      { apply steps_one. cbn [vstep]. rewrite Hu, CU. reflexivity. }
      destruct (execs w n hb b u) as [[o1 u1]|] eqn:XB; [|discriminate].
      destruct (IH b _ E (Some i) al hb u o1 u1 (KLoop c B R k) [VLabel (LLoopEnd i)] vs XB F1 N2)
        as (vs1 & R1 & Q1).
      { constructor; auto; [exact (fresh_incl _ _ _ _ I1 FR)|exact (names_incl _ _ _ _ _ _ _ I1' Pnm)]. }
      { eapply at_trans; [exact A|]. apply at_while. apply at_here. }
      { eapply dloc_l; exact D. }
      assert (post E lp ONormal (ids_ss b) true u1 vs vs1 ->
              (exists s, s = vs1 /\ steps (Run (VWhile c B :: R) k vs) (Run (VWhile c B :: R) k s)) ->
              exec w n hb (SWhile i c b ob) u1 = Some (o, u') ->
              lands (Run (VWhile c B :: R) k vs) rest k E lp o (ids_s (SWhile i c b ob))
                    (indirect_s (SWhile i c b ob)) u' vs) as AGAIN.
      { intros Q (s & -> & S1) X.
        pose proof (IHs (SWhile i c b ob) g E lp al hb u1 o u' k rest vs1 X F0 N0) as G.
        rewrite EQ in G. fold R in G.
        destruct G as (vs' & R2 & Q2).
        { eapply pre_post; [exact I1'|exact Pr0|exact Q]. }
        { exact A. }
        { exact D0. }
        exists vs'. split.
        - eapply reach_steps; [exact S1|exact R2].
        - eapply post_seq; [exact I1'|apply incl_refl| |exact Q|exact Q2]. auto. }
      destruct o1.
      + apply AGAIN; auto.
        * apply (post_normal_lp _ (Some i)). eapply post_incl; [apply incl_refl| |exact Q1]. discriminate.
        * exists vs1. split; [reflexivity|]. eapply steps_trans; [exact S0|]. eapply steps_trans; [exact R1|].
          eapply steps_step; [reflexivity|]. apply steps_one. reflexivity.
      + injection H as <- <-.
        eapply lands_lp; [exact (fun x => x)|discriminate|exact I1'| |].
        2:{ exists vs1. split; [eapply reach_steps; [exact S0|exact R1]|exact Q1]. }
        intros X. cbn [indirect_s] in X. apply orb_false_iff in X. apply X.
      + injection H as <- <-.
        eapply lands_lp; [exact (fun x => x)|discriminate|exact I1'| |].
        2:{ exists vs1. split; [eapply reach_steps; [exact S0|exact R1]|exact Q1]. }
        intros X. cbn [indirect_s] in X. apply orb_false_iff in X. apply X.
      + injection H as <- <-. unfold reach, target in R1. rewrite SL in R1. cbn [first_fin] in R1.
        destruct Q1 as [Qu Qr Qe Qc Qs Qd].
        assert (tcode E (Some i) OBreak = None) as TC by (unfold tcode, target; rewrite SL; reflexivity).
        rewrite TC in Qc. cbn in Qc.
        destruct (ST vs1 Qr Qe) as (s' & S1 & B1 & B2 & B3 & B4 & B5).
        rewrite <- Qu, <- B1. apply lands_normal; auto.
        * eapply steps_trans; [exact S0|]. eapply steps_trans; [exact R1|].
          unfold tail in AT. cbn [app] in AT. rewrite (jump_at _ _ _ _ AT).
          unfold tail in S1. cbn [app] in S1.
          inversion S1 as [|? ? ? X1 X2]; subst; [|].
          -- exfalso. clear -H0. apply (f_equal (@length _)) in H0. cbn in H0.
             rewrite app_length in H0. lia.
          -- cbn [vstep] in X1. injection X1 as <-. exact X2.
        * intros t Ht. rewrite B4. apply Qc. intros X. apply Ht. apply I1'. exact X.
        * intros t Ht Ht'. rewrite B5. apply Qs; auto.
      + apply AGAIN; auto.
        * destruct Q1 as [Qu Qr Qe Qc Qs Qd].
          assert (tcode E (Some i) OContinue = None) as TC by (unfold tcode, target; rewrite SL; reflexivity).
          rewrite TC in Qc. constructor; auto. intros; discriminate.
        * exists vs1. split; [reflexivity|]. eapply steps_trans; [exact S0|].
          unfold reach, target in R1. rewrite SL in R1. cbn [first_fin] in R1.
          eapply steps_trans; [exact R1|]. rewrite (jump_at _ _ _ _ AE).
          apply steps_one. reflexivity.
    - assert (steps (Run (VWhile c B :: R) k vs) (Run R k vs)) as S0.
      { apply steps_one. cbn [vstep]. rewrite Hu, CU. reflexivity. }
      destruct (IH ob _ E (Some i) al hb u o u' k (tail ++ rest) vs H F2 N3) as (vs1 & R1 & Q1).
      { constructor; auto; [exact (fresh_incl _ _ _ _ I2 FR)|exact (names_incl _ _ _ _ _ _ _ I2' Pnm)]. }
      { eapply at_trans; [exact A|]. apply at_next. apply at_here. }
      { eapply dloc_r; exact D. }
      assert (~ loops o) as NL.
      { intros L. apply (proj1 (proj2 (loop_sound n)) _ _ _ _ _ _ H F2) in L. destruct L as [L _]. discriminate. }
      assert (indirect_s (SWhile i c b ob) = false -> indirect ob = false) as J.
      { intros X. cbn [indirect_s] in X. apply orb_false_iff in X. apply X. }
      destruct o; try (eapply lands_lp; [exact NL|discriminate|exact I2'|exact J|];
        exists vs1; split; [eapply reach_steps; [exact S0|exact R1]|exact Q1]; fail).
      destruct Q1 as [Qu Qr Qe Qc Qs Qd].
      destruct (ST vs1 Qr Qe) as (s' & S1 & B1 & B2 & B3 & B4 & B5).
      rewrite <- Qu, <- B1. apply lands_normal; auto.
      + eapply steps_trans; [exact S0|]. eapply steps_trans; [exact R1|exact S1].
      + intros t Ht. rewrite B4. rewrite Qc; [reflexivity|]. intros X. apply Ht. apply I2'. exact X.
      + intros t Ht Ht'. rewrite B5. apply Qs; auto.
  Qed.

  (** Arriving at the finally block of [t] with outcome [o1] pending. *)
  Record arrive (E : env) (t : nat) (o1 : outcome) (u1 : U) (is : list nat) (vs vs1 : vstate U) : Prop := {
    a_code : vcode vs1 t = code_num o1;
    a_err : forall e, o1 = ORaise e -> verr vs1 t = Some e;
    a_u : vu vs1 = u1;
    a_res : vres vs1 = res_of o1;
    a_merr : vmerr vs1 = None;
    a_codes : forall x, ~ In x is -> vcode vs1 x = vcode vs x;
    a_errs : forall x, ~ In x is -> errvar E <> Some x -> verr vs1 x = verr vs x
  }.

  Lemma target_own h E lp o1 : tfin h || twith h = true -> o1 <> ONormal ->
    (forall e, o1 = ORaise e -> match_h (ths h) 0 e = None) ->
    (loops o1 -> tfin h = true /\ exists i, lp = Some i /\ tloop h = Some i) ->
    target (h :: E) lp o1 = Some (LFinally (tid h), Some (tid h, code_num o1)) /\
    err_of (h :: E) o1 = None.
  Proof.
    intros F N M L. destruct o1; cbn [target err_of code_num].
    - congruence.
    - cbn [first_fw]. rewrite F. auto.
    - cbn [catch]. rewrite (M e eq_refl), F. auto.
    - destruct (L I) as (L1 & i & -> & L2). cbn [same_loop filter]. rewrite L2, Nat.eqb_refl.
      cbn [first_fin]. rewrite L1. auto.
    - destruct (L I) as (L1 & i & -> & L2). cbn [same_loop filter]. rewrite L2, Nat.eqb_refl.
      cbn [first_fin]. rewrite L1. auto.
  Qed.

  Lemma arrive_own h E lp o1 is u1 vs vs1 :
    target (h :: E) lp o1 = Some (LFinally (tid h), Some (tid h, code_num o1)) ->
    err_of (h :: E) o1 = None -> ~ In (tid h) is ->
    post (h :: E) lp o1 is false u1 (set_code (tid h) 0 vs) vs1 ->
    forall is', incl (tid h :: is) is' -> arrive E (tid h) o1 u1 is' vs vs1.
  Proof.
    intros T M NI [Qu Qr Qe Qc Qs Qd] is' I. unfold tcode in Qc. rewrite T in Qc.
    constructor.
    - rewrite Qc by exact NI. cbn. rewrite Nat.eqb_refl. reflexivity.
    - intros e ->. eapply Qd; reflexivity.
    - exact Qu.
    - exact Qr.
    - rewrite Qe. exact M.
    - intros x Hx. rewrite Qc by (intros X; apply Hx, I; right; exact X). cbn. unfold upd.
      destruct (Nat.eqb_spec x (tid h)) as [->|]; [|reflexivity].
      destruct Hx. apply I. left. reflexivity.
    - intros x Hx _. rewrite Qs.
      + reflexivity.
      + intros X; apply Hx, I; right; exact X.
      + cbn. intros [= X]. apply Hx, I. left. exact X.
  Qed.

  Lemma names_minus n hs E al hb t is vs :
    names_ok n E al hb is vs ->
    names_ok (minus n (names_h hs)) E (handler_aliases t al hs) hb is vs.
  Proof.
    intros H x Hx. unfold minus in Hx. apply filter_In in Hx. destruct Hx as [Hx Hm].
    destruct (H x Hx) as (t0 & e & A & B). exists t0, e. split; [|exact B].
    rewrite <- A. clear -Hm. apply negb_true_iff in Hm. revert al.
    induction hs as [|c y b hs IH]; intros al; cbn [handler_aliases]; [reflexivity|].
    assert (mem x (names_h hs) = false) as Hm'.
    { destruct y; cbn [names_h] in Hm; [|exact Hm]. cbn in Hm. apply orb_false_iff in Hm. apply Hm. }
    rewrite (IH Hm'). destruct y as [y|]; [|reflexivity]. cbn.
    destruct (Nat.eqb_spec y x) as [->|]; [|reflexivity].
    cbn in Hm. rewrite Nat.eqb_refl in Hm. discriminate.
  Qed.

  Lemma sim_handlers n : sim_ss n -> sim_h n -> sim_h (S n).
  Proof.
    intros IH IHh hs g E lp al hb t i f e u o u' vs H F N Pr NI NE V D1 D2.
    destruct hs as [|c x b hs]; cbn [exech] in H.
    - left. injection H as <- <-. auto.
    - cbn [supported_h] in F. apply andb_prop in F. destruct F as [F1 F2].
      cbn [ids_h] in N, NI, Pr. apply NoDup_app_inv in N. destruct N as [N1 N2].
      cbn [handler_pieces] in D1. cbn [def_h] in D2. cbn [handler_classes match_h].
      destruct (isinst w e c).
      + right. destruct D1 as [p A].
        exists i, (handler_pieces declared E lp (add_alias x t al) t (S i) f hs ++ p).
        split; [reflexivity|].
        rewrite <- !app_assoc in A. rewrite (jump_at _ _ _ _ A).
        destruct Pr as [Prel Pwf Pfr Pnm Pu Pres Perr].
        destruct (IH b _ E lp (add_alias x t al) (bind x e hb) u o u' KStop
                     (handler_end t f ++ handler_pieces declared E lp (add_alias x t al) t (S i) f hs ++ p)
                     vs H F1 N1) as (vs' & R & Q).
        * constructor; auto.
          -- destruct Prel. constructor; auto.
          -- eapply fresh_incl; [|exact Pfr]. apply incl_app_l.
          -- cbn [c_names]. intros y Hy.
             assert (x = Some y \/ (In y (c_names g) /\ x <> Some y)) as [->|[Hy' NX]].
             { destruct x as [x|]; cbn in Hy.
               - destruct (Nat.eq_dec x y) as [->|NX]; [auto|]. right. destruct Hy; [congruence|].
                 split; [assumption|congruence].
               - right. split; [exact Hy|discriminate]. }
             ++ exists t, e. cbn. rewrite !Nat.eqb_refl. repeat split; auto.
                ** apply V. cbn. discriminate.
                ** intros X. apply NI. apply in_or_app. auto.
             ++ destruct (Pnm y Hy') as (t0 & e0 & B1 & B2 & B3 & B4 & B5). exists t0, e0.
                assert (blookup (add_alias x t al) y = blookup al y /\ blookup (bind x e hb) y = blookup hb y) as [-> ->].
                { destruct x as [x|]; [|auto]. cbn. destruct (Nat.eqb_spec x y); [congruence|auto]. }
                repeat split; auto. intros X. apply B4. apply in_or_app. auto.
        * eapply at_drop. exact A.
        * eapply dloc_l. exact D2.
        * exists vs'. split; [exact R|]. eapply post_incl; [|  |exact Q].
          -- apply incl_app_l.
          -- cbn [indirect_h]. intros X. apply orb_false_iff in X. apply X.
      + assert (supported_h {| c_handlers := c_handlers g; c_with := c_with g; c_fin := c_fin g;
                     c_loop := c_loop g; c_loop_fin := c_loop_fin g;
                     c_names := minus (c_names g) (omem x []) |} hs = true) as F2' by exact F2.
        destruct (IHh hs _ E lp (add_alias x t al) hb t (S i) f e u o u' vs H F2' N2)
          as [[M [-> ->]]|(j & rest & M & L)].
        * destruct Pr as [Prel Pwf Pfr Pnm Pu Pres Perr]. constructor; auto.
          -- destruct Prel. constructor; auto.
          -- eapply fresh_incl; [|exact Pfr]. apply incl_app_r.
          -- cbn [c_names]. eapply names_incl; [apply incl_app_r|].
             pose proof (names_minus (c_names g) (HCons c x SNil HNil) E al hb t _ vs Pnm) as X.
             cbn [names_h handler_aliases] in X. destruct x; exact X.
        * intros X. apply NI. apply in_or_app. auto.
        * exact NE.
        * intros X. apply V. cbn [names_h]. destruct x; [discriminate|exact X].
        * rewrite !app_assoc in D1. eapply dloc_r. exact D1.
        * eapply dloc_r. exact D2.
        * left. auto.
        * right. exists j, rest. split; [exact M|].
          destruct L as (vs' & R & Q). exists vs'. split; [exact R|]. eapply post_incl; [| |exact Q].
          -- apply incl_app_r.
          -- cbn [indirect_h]. intros X. apply orb_false_iff in X. apply X.
  Qed.

  Lemma match_h_catchall hs : forall i e, catchall hs = true -> match_h (handler_classes hs) i e <> None.
  Proof.
    induction hs as [|c x b hs IH]; intros i e H; cbn in *; [discriminate|].
    destruct (isinst w e c) eqn:X; [discriminate|].
    apply orb_prop in H. destruct H as [H|H]; [|auto].
    apply Nat.eqb_eq in H. subst c. rewrite WOK in X. discriminate.
  Qed.

  (** The parts of a try statement. *)
  Definition has_fin (f : stmts) : bool := negb (is_nil f).
  Definition try_rest (t : nat) (ob f : stmts) : list vstmt :=
    if is_nil ob then (if is_nil f then [] else [VGoto (LFinally t)]) else [VGoto (LElse t)].

  Lemma sim_try n : sim_ss n -> sim_h n -> forall t b hs ob f g E lp al hb u o u' k rest vs,
      exec w (S n) hb (STry t b hs ob f) u = Some (o, u') ->
      supported_s g (STry t b hs ob f) = true -> NoDup (ids_s (STry t b hs ob f)) ->
      pre g E lp al hb (ids_s (STry t b hs ob f)) u vs ->
      at_ P KStop (inl_s declared E lp al (STry t b hs ob f) ++ rest) k ->
      dloc (def_s declared E lp al (STry t b hs ob f)) ->
      lands (Run (inl_s declared E lp al (STry t b hs ob f) ++ rest) k vs) rest k E lp o
            (ids_s (STry t b hs ob f)) (indirect_s (STry t b hs ob f)) u' vs.
  Proof.
    intros IH IHh t b hs ob f g E lp al hb u o u' k rest vs H F N Pr A D.
    set (h := try_info t hs f lp).
    cbn [exec] in H. cbn [supported_s] in F.
    apply andb_prop in F. destruct F as [F Fn]. apply andb_prop in F. destruct F as [F Ff].
    apply andb_prop in F. destruct F as [F Fo]. apply andb_prop in F. destruct F as [Fb Fh].
    cbn [ids_s] in *. inversion N as [|? ? N1 N2]; subst.
    apply NoDup_app_inv in N2. destruct N2 as [Nb N2]. apply NoDup_app_inv in N2. destruct N2 as [Nh N2].
    apply NoDup_app_inv in N2. destruct N2 as [No Nf].
    set (is := t :: ids_ss b ++ ids_h hs ++ ids_ss ob ++ ids_ss f) in *.
    assert (~ In t (ids_ss b) /\ ~ In t (ids_h hs) /\ ~ In t (ids_ss ob)) as (Tb & Th & To).
    { repeat split; intros X; apply N1; rewrite !in_app_iff; auto. }
    assert (incl (ids_ss b) is /\ incl (ids_h hs) is /\ incl (ids_ss ob) is) as (Ib & Ih & Io).
    { unfold is. repeat split; intros x X; right; rewrite !in_app_iff; auto. }
    assert (incl (t :: ids_ss b) is) as Itb.
    { intros x [<-|X]; [left; reflexivity|exact (Ib x X)]. }
    pose proof (p_u _ _ _ _ _ _ _ _ Pr) as Hu.
    destruct Pr as [Prel Pwf Pfr Pnm _ Pres Perr].
    assert (~ In t (map tid E)) as TE.
    { intros X. apply in_map_iff in X. destruct X as (x & <- & X). destruct (proj1 Pfr x X) as [Y _].
      apply Y. left. reflexivity. }
    (* locations *)
    cbn [def_s] in D.
    pose proof (dloc_l _ _ D) as Dhs. apply dloc_r in D.
    pose proof (dloc_l _ _ D) as Delse. apply dloc_r in D.
    pose proof (dloc_l _ _ D) as Dfin. apply dloc_r in D.
    pose proof (dloc_l _ _ D) as Db. apply dloc_r in D.
    pose proof (dloc_l _ _ D) as Dh. apply dloc_r in D.
    pose proof (dloc_l _ _ D) as Do. apply dloc_r in D.
    assert (inl_s declared E lp al (STry t b hs ob f) ++ rest =
            VSetCode t 0 :: inl_ss declared (h :: E) lp al b ++ try_rest t ob f ++ VLabel (LPost t) :: rest) as EQ.
    { cbn [inl_s]. fold h. unfold try_rest. cbn [app]. f_equal. rewrite <- !app_assoc. reflexivity. }
    rewrite EQ in *. clear EQ.
    assert (at_ P KStop (VLabel (LPost t) :: rest) k) as AP.
    { eapply at_trans; [exact A|]. apply at_next. eapply at_drop. apply at_app. }
    (* the body *)
    destruct (execs w n hb b u) as [[ob1 ub]|] eqn:XB; [|discriminate].
    set (gb := {| c_handlers := c_handlers g || negb (no_handlers hs); c_with := c_with g;
                  c_fin := c_fin g || negb (is_nil f); c_loop := c_loop g;
                  c_loop_fin := c_loop_fin g || negb (is_nil f); c_names := c_names g |}) in *.
    assert (has_fin f = true -> no_with E) as WF.
    { unfold has_fin. intros X. rewrite X in Ff. cbn [negb orb] in Ff.
      apply andb_prop in Ff. destruct Ff as [Ff _]. apply andb_prop in Ff. destruct Ff as [_ Ff].
      apply negb_true_iff in Ff. apply (r_with _ _ _ Prel). exact Ff. }
    assert (pre gb (h :: E) lp al hb (ids_ss b) u (set_code t 0 vs)) as PB.
    { constructor; auto.
      - destruct Prel as [R1 R2 R3 R4]. constructor; cbn [gb c_handlers c_with c_fin c_loop c_loop_fin].
        + intros X y [<-|Y]; [reflexivity|]. apply (R1 X). exact Y.
        + intros X y Y. apply orb_false_iff in X. destruct X as [X1 X2]. destruct Y as [<-|Y].
          * cbn. destruct hs; [reflexivity|discriminate X2].
          * apply (R2 X1). exact Y.
        + cbn [existsb]. rewrite R3. unfold h. cbn [tfin try_info]. apply orb_comm.
        + intros X. destruct (R4 X) as ((i & ->) & R5 & E2 & R6).
          split; [eauto|]. assert (same_loop (Some i) (h :: E) = h :: same_loop (Some i) E) as ->.
          { unfold h. cbn [same_loop filter tloop try_info]. rewrite Nat.eqb_refl. reflexivity. }
          split; [cbn [existsb]; rewrite R5; unfold h; cbn [tfin try_info]; apply orb_comm|].
          exists E2. cbn [app]. f_equal. exact R6.
      - cbn [wf_env]. split; [discriminate|]. split; [exact WF|exact Pwf].
      - destruct Pfr as [P1 P2]. split.
        + intros y [<-|Y].
          * split; [exact Tb|]. cbn. intros j Hj X. apply (P2 j Hj). apply Ib. exact X.
          * destruct (P1 y Y) as [Q1 Q2]. split; [intros X; apply Q1, Ib, X|].
            intros j Hj X. apply (Q2 j Hj). apply Ib. exact X.
        + intros j Hj X. apply (P2 j Hj). apply Ib. exact X.
      - intros x Hx. destruct (Pnm x Hx) as (t0 & e & B1 & B2 & B3 & B4 & B5). exists t0, e.
        repeat split; auto. cbn. intros [X|X]; [|auto]. apply B4. left. exact X. }
    destruct (IH b gb (h :: E) lp al hb u ob1 ub k (try_rest t ob f ++ VLabel (LPost t) :: rest)
                 (set_code t 0 vs) XB Fb Nb PB) as (vsb & Rb & Qb).
    { eapply at_trans; [exact A|]. apply at_next. apply at_here. }
    { exact Db. }
    apply (reach_steps (Run (VSetCode t 0 :: inl_ss declared (h :: E) lp al b ++ try_rest t ob f ++ VLabel (LPost t) :: rest) k vs)) in Rb;
      [|apply steps_one; reflexivity].
    set (c0 := Run (VSetCode t 0 :: inl_ss declared (h :: E) lp al b ++ try_rest t ob f ++ VLabel (LPost t) :: rest) k vs) in *.
    (* frames after the body *)
    assert (tcode (h :: E) lp ob1 = None -> forall x, ~ In x is -> vcode vsb x = vcode vs x) as CB.
    { intros TC x Hx. rewrite (q_code _ _ _ _ _ _ _ _ Qb) by (intros X; apply Hx, Ib, X).
      rewrite TC. cbn. unfold upd. destruct (Nat.eqb_spec x t) as [->|]; [|reflexivity].
      destruct Hx. left. reflexivity. }
    assert (forall x, ~ In x is -> verr vsb x = verr vs x) as EB.
    { intros x Hx. rewrite (q_errs _ _ _ _ _ _ _ _ Qb); [reflexivity|intros X; apply Hx, Ib, X|].
      cbn. intros [= X]. apply Hx. left. exact X. }
    (* handlers and else part *)
    set (o1u := match ob1 with ONormal => execs w n hb ob ub | ORaise e => exech w n hb hs e ub
                | _ => Some (ob1, ub) end).
    assert (exists o1 u1, o1u = Some (o1, u1) /\
      match execs w n hb f u1 with Some (ONormal, u'') => Some (o1, u'') | r => r end = Some (o, u')) as (o1 & u1 & O1 & HF).
    { destruct ob1; cbn in o1u; subst o1u; cbn in H.
      - destruct (execs w n hb ob ub) as [[]|]; [eauto|discriminate].
      - eauto.
      - destruct (exech w n hb hs e ub) as [[]|]; [eauto|discriminate].
      - eauto.
      - eauto. }
    clear H.
    (* how the handlers and the else part end, before the finally block *)
    assert (forall e j, ob1 = ORaise e -> match_h (handler_classes hs) 0 e = Some j ->
              exists rest', lands c0 (handler_end t (has_fin f) ++ rest') KStop E lp o1 is (indirect_h hs) u1 vs) as HH.
    { intros e j -> M. cbn in O1.
      assert (catch (h :: E) e = CHandler t j) as CC by (cbn [catch h try_info ths tid]; rewrite M; reflexivity).
      unfold reach, target in Rb. rewrite CC in Rb.
      assert (forall x, ~ In x is -> vcode vsb x = vcode vs x) as CB'.
      { apply CB. unfold tcode, target. rewrite CC. reflexivity. }
      destruct (IHh hs g E lp al hb t 0 (has_fin f) e ub o1 u1 vsb O1 Fh Nh)
        as [[M' _]|(j' & rest' & M' & vs' & R' & Q')]; auto.
      - destruct Qb as [Qu Qr Qe Qc Qs Qd]. constructor; auto.
        + eapply fresh_incl; eauto.
        + eapply names_frame; [exact Ih|exact Pnm|]. intros x Hx _. apply EB. exact Hx.
        + rewrite Qe. unfold err_of. rewrite CC. reflexivity.
      - intros X. destruct (names_h hs); [congruence|]. apply negb_true_iff in Fn.
        exact (q_dir _ _ _ _ _ _ _ _ Qb Fn e h E eq_refl eq_refl).
      - rewrite M in M'. discriminate.
      - rewrite M in M'. injection M' as <-. exists rest', vs'. split.
        + eapply reach_steps; [exact Rb|exact R'].
        + eapply post_after; [exact CB'| |exact Ih|exact (fun z => z)|exact Q']. auto. }
    assert (ob1 = ONormal -> is_nil ob = false ->
              exists rest', lands c0 (handler_end t (has_fin f) ++ rest') KStop E lp o1 is (indirect ob) u1 vs) as HE.
    { intros -> NO. cbn in O1. unfold reach in Rb. unfold try_rest in Rb. rewrite NO in *.
      destruct Delse as [p Ae]. rewrite <- !app_assoc in Ae.
      exists p.
      assert (forall x, ~ In x is -> vcode vsb x = vcode vs x) as CB' by (apply CB; reflexivity).
      destruct (IH ob _ E lp (handler_aliases t al hs) hb ub o1 u1 KStop (handler_end t (has_fin f) ++ p)
                   vsb O1 Fo No) as (vs' & R' & Q').
      - destruct Qb as [Qu Qr Qe Qc Qs Qd]. constructor; auto.
        + destruct Prel. constructor; auto.
        + eapply fresh_incl; eauto.
        + cbn [c_names]. apply names_minus.
          eapply names_frame; [exact Io|exact Pnm|]. intros x Hx _. apply EB. exact Hx.
      - eapply at_drop. exact Ae.
      - exact Do.
      - exists vs'. split.
        + eapply reach_steps; [|exact R']. eapply steps_trans; [exact Rb|].
          eapply steps_step; [reflexivity|].
          rewrite (jump_at _ _ _ _ Ae). apply steps_refl.
        + eapply post_after; [exact CB'| |exact Io|exact (fun z => z)|exact Q']. auto. }
    assert (forall e, ob1 = ORaise e -> match_h (handler_classes hs) 0 e = None -> o1 = ORaise e /\ u1 = ub) as HN.
    { intros e -> M. cbn in O1. clear -O1 M.
      assert (forall i m, match_h (handler_classes hs) i e = None -> exech w m hb hs e ub = Some (o1, u1) ->
                o1 = ORaise e /\ u1 = ub) as G.
      { clear. induction hs as [|c x b hs IH]; intros i m M X; (destruct m; [discriminate|]); cbn [exech] in X.
        - injection X as <- <-. auto.
        - cbn [handler_classes match_h] in M. destruct (isinst w e c); [discriminate|]. eapply IH; eauto. }
      eapply G; eauto. }
    assert (forall e, ob1 = ORaise e -> match_h (handler_classes hs) 0 e = None ->
              indirect_s (STry t b hs ob f) = true) as HI.
    { intros e -> M. cbn [indirect_s].
      rewrite (proj1 (proj2 (raise_sound w WOK n)) _ _ _ _ _ XB).
      destruct (catchall hs) eqn:CA; [|reflexivity].
      destruct (match_h_catchall hs 0 e CA M). }
    assert (forall i2, indirect_s (STry t b hs ob f) = false -> In i2 [indirect_h hs; indirect ob] -> i2 = false) as HJ.
    { intros i2 X Y. cbn [indirect_s] in X. apply orb_false_iff in X. destruct X as [X _].
      apply orb_false_iff in X. destruct X as [X X3]. apply orb_false_iff in X. destruct X as [X1 X2].
      destruct Y as [<-|[<-|[]]]; auto. }
    destruct (is_nil f) eqn:NF.
    - (* no finally block *)
      assert (o = o1 /\ u' = u1) as [-> ->].
      { destruct f; [|discriminate]. destruct n; [discriminate|]. cbn [execs] in HF.
        injection HF as <- <-. auto. }
      assert (forall rest' ind2, (indirect_s (STry t b hs ob f) = false -> ind2 = false) ->
                lands c0 (handler_end t (has_fin f) ++ rest') KStop E lp o1 is ind2 u1 vs ->
                lands c0 rest k E lp o1 is (indirect_s (STry t b hs ob f)) u1 vs) as LE.
      { intros rest' ind2 J (vs' & R' & Q'). exists vs'. split; [|eapply post_incl; [apply incl_refl|exact J|exact Q']].
        destruct o1; try (eapply reach_abrupt; [discriminate|exact R']).
        cbn [reach] in *. eapply steps_trans; [exact R'|]. unfold has_fin. rewrite NF. cbn [negb handler_end app].
        eapply steps_step; [reflexivity|]. rewrite (jump_at _ _ _ _ AP). apply steps_refl. }
      assert (first_fin (h :: E) = first_fin E) as FF.
      { cbn [first_fin h try_info tfin]. rewrite NF. reflexivity. }
      assert (forall ls, first_fin (same_loop ls (h :: E)) = first_fin (same_loop ls E)) as FL.
      { intros [i|]; [|reflexivity]. cbn [same_loop filter].
        match goal with |- context [if ?x then h :: _ else _] => destruct x end; [|reflexivity].
        cbn [first_fin h try_info tfin]. rewrite NF. reflexivity. }
      assert (first_fw (h :: E) = first_fw E) as FW.
      { cbn [first_fw h try_info tfin twith]. rewrite NF. reflexivity. }
      assert (forall e, match_h (handler_classes hs) 0 e = None -> catch (h :: E) e = catch E e) as FC.
      { intros e M. cbn [catch h try_info ths tfin twith]. rewrite M, NF. reflexivity. }
      assert (ob1 <> ONormal -> o1 = ob1 -> u1 = ub -> target (h :: E) lp ob1 = target E lp ob1 ->
              err_of (h :: E) ob1 = err_of E ob1 ->
              (forall e, ob1 = ORaise e -> indirect_s (STry t b hs ob f) = true) ->
              lands c0 rest k E lp o1 is (indirect_s (STry t b hs ob f)) u1 vs) as LA.
      { intros NN -> -> T M J. exists vsb. split.
        - unfold reach in *. rewrite T in Rb. destruct ob1; [congruence|..]; exact Rb.
        - destruct Qb as [Qu Qr Qe Qc Qs Qd]. constructor; auto.
          + rewrite Qe. exact M.
          + intros x Hx. rewrite Qc by (intros X; apply Hx, Ib, X). unfold tcode. rewrite T.
            assert (upd (vcode vs) t 0 x = vcode vs x) as UP.
            { unfold upd. destruct (Nat.eqb_spec x t) as [->|]; [|reflexivity]. destruct Hx. left. reflexivity. }
            destruct (target E lp ob1) as [[? [[? ?]|]]|]; cbn [with_code set_code vcode]; rewrite UP; reflexivity.
          + intros X e h' E' Ho. rewrite (J e Ho) in X. discriminate. }
      destruct ob1.
      + destruct (is_nil ob) eqn:NO.
        * cbn in O1. destruct ob; [|discriminate]. destruct n; [discriminate|].
          cbn [execs] in O1. injection O1 as <- <-.
          destruct Qb as [Qu Qr Qe Qc Qs Qd]. rewrite <- Qu. apply lands_normal; auto.
          unfold reach, try_rest in Rb. rewrite NF in Rb. cbn [is_nil app] in Rb.
          eapply steps_trans; [exact Rb|]. apply steps_one. reflexivity.
        * destruct (HE eq_refl eq_refl) as [rest' L]. eapply LE; [|exact L].
          intros X. apply HJ; auto. right. left. reflexivity.
      + cbn in O1. injection O1 as <- <-. apply LA; auto; try discriminate.
        cbn [target]. rewrite FW. reflexivity.
      + destruct (match_h (handler_classes hs) 0 e) as [j|] eqn:M.
        * destruct (HH e j eq_refl M) as [rest' L]. eapply LE; [|exact L].
          intros X. apply HJ; auto. left. reflexivity.
        * destruct (HN e eq_refl M) as [E1 E2]. apply LA; auto; try discriminate.
          -- cbn [target]. rewrite (FC e M). reflexivity.
          -- cbn [err_of]. rewrite (FC e M). reflexivity.
          -- intros e' [= <-]. eapply HI; eauto.
      + cbn in O1. injection O1 as <- <-. apply LA; auto; try discriminate.
        cbn [target]. rewrite FL. reflexivity.
      + cbn in O1. injection O1 as <- <-. apply LA; auto; try discriminate.
        cbn [target]. rewrite FL. reflexivity.
    - (* with a finally block *)
      cbn [negb orb] in Ff.
      apply andb_prop in Ff. destruct Ff as [Ff F7]. apply andb_prop in Ff. destruct Ff as [Ff F6].
      apply andb_prop in Ff. destruct Ff as [Ff F5]. apply andb_prop in Ff. destruct Ff as [Ff F4].
      apply andb_prop in Ff. destruct Ff as [Ff F3]. apply andb_prop in Ff. destruct Ff as [F1 F2].
      apply negb_true_iff in F1, F2, F3, F4, F6, F7. rewrite F7 in Qb.
      assert (no_with E) as NW by (apply (r_with _ _ _ Prel); exact F6).
      assert (loops ob1 -> exists i, lp = Some i) as LL.
      { intros X. apply (proj1 (proj2 (loop_sound n)) _ _ _ _ _ _ XB Fb) in X. destruct X as [X _].
        cbn in X. apply (r_loop _ _ _ Prel X). }
      assert (ob1 <> ONormal -> (forall e, ob1 = ORaise e -> match_h (handler_classes hs) 0 e = None) ->
              steps c0 (jump P (LFinally t) vsb) /\ arrive E t ob1 ub is vs vsb) as OWN.
      { intros NN M.
        destruct (target_own h E lp ob1) as [T X]; auto.
        { cbn. rewrite NF. reflexivity. }
        { intros L. split; [cbn; rewrite NF; reflexivity|]. destruct (LL L) as [i ->]. exists i. auto. }
        split.
        - unfold reach in Rb. rewrite T in Rb. destruct ob1; [congruence|..]; exact Rb.
        - apply (arrive_own h E lp ob1 (ids_ss b) ub vs vsb T X Tb Qb). exact Itb. }
      assert (forall rest' ind2, o1 = ONormal ->
                lands c0 (handler_end t (has_fin f) ++ rest') KStop E lp o1 is ind2 u1 vs ->
                exists vs1, steps c0 (jump P (LFinally t) vs1) /\ arrive E t o1 u1 is vs vs1) as QUIET.
      { intros rest' ind2 -> (vs' & R' & Q'). exists (set_code t 0 vs'). split.
        - cbn [reach] in R'. eapply steps_trans; [exact R'|]. unfold has_fin. rewrite NF. cbn [negb handler_end app].
          eapply steps_step; [reflexivity|]. apply steps_one. reflexivity.
        - destruct Q' as [Qu Qr Qe Qc Qs Qd]. constructor; auto.
          + cbn. unfold upd. rewrite Nat.eqb_refl. reflexivity.
          + discriminate.
          + intros x Hx. cbn. unfold upd. destruct (Nat.eqb_spec x t) as [->|].
            * destruct Hx. left. reflexivity.
            * apply Qc. exact Hx. }
      assert (exists vs1, steps c0 (jump P (LFinally t) vs1) /\ arrive E t o1 u1 is vs vs1) as (vs1 & S1 & AR).
      { destruct ob1.
        - destruct (is_nil ob) eqn:NO.
          + cbn in O1. destruct ob; [|discriminate]. destruct n; [discriminate|].
            cbn [execs] in O1. injection O1 as <- <-.
            exists vsb. unfold reach, try_rest in Rb. rewrite NF in Rb. cbn [is_nil app] in Rb. split.
            * eapply steps_trans; [exact Rb|]. apply steps_one. reflexivity.
            * destruct Qb as [Qu Qr Qe Qc Qs Qd]. constructor; auto.
              -- rewrite Qc by exact Tb. cbn. unfold upd. rewrite Nat.eqb_refl. reflexivity.
              -- discriminate.
          + destruct (HE eq_refl eq_refl) as [rest' L]. eapply QUIET; [|exact L].
            cbn in O1. destruct o1; [reflexivity|..]; exfalso.
            * pose proof (proj1 (proj2 (exit_sound w n)) _ _ _ _ _ false O1 I). congruence.
            * pose proof (proj1 (proj2 (raise_sound w WOK n)) _ _ _ _ _ O1). congruence.
            * pose proof (proj1 (proj2 (exit_sound w n)) _ _ _ _ _ false O1 eq_refl). congruence.
            * pose proof (proj1 (proj2 (exit_sound w n)) _ _ _ _ _ false O1 eq_refl). congruence.
        - cbn in O1. injection O1 as <- <-. exists vsb. apply OWN; discriminate.
        - destruct (match_h (handler_classes hs) 0 e) as [j|] eqn:M.
          + destruct (HH e j eq_refl M) as [rest' L]. eapply QUIET; [|exact L].
            cbn in O1. destruct o1; [reflexivity|..]; exfalso.
            * pose proof (proj2 (proj2 (exit_sound w n)) _ _ _ _ _ _ false O1 I). congruence.
            * destruct (proj2 (proj2 (raise_sound w WOK n)) _ _ _ _ _ _ O1) as [X|[X ->]]; [congruence|].
              assert (forall m hs', catchall hs' = false -> may_raise_h hs' = false -> forall i u2,
                        exech w m hb hs' e ub = Some (ORaise e, u2) -> match_h (handler_classes hs') i e = None) as G.
              { clear -WOK. induction m as [|m IHm]; [discriminate|]. intros [|c x bb hs'] C R i u2 X; [reflexivity|].
                cbn [exech] in X. cbn [catchall may_raise_h] in C, R. apply orb_false_iff in C, R.
                destruct C as [C1 C2], R as [R1 R2]. cbn [handler_classes match_h].
                destruct (isinst w e c).
                - pose proof (proj1 (proj2 (raise_sound w WOK m)) _ _ _ _ _ X). congruence.
                - eapply IHm; eauto. }
              rewrite (G n hs X F1 0 _ O1) in M. discriminate.
            * pose proof (proj2 (proj2 (exit_sound w n)) _ _ _ _ _ _ false O1 eq_refl). congruence.
            * pose proof (proj2 (proj2 (exit_sound w n)) _ _ _ _ _ _ false O1 eq_refl). congruence.
          + destruct (HN e eq_refl M) as [-> ->]. exists vsb. apply OWN; [discriminate|]. intros e' [= <-]. exact M.
        - cbn in O1. injection O1 as <- <-. exists vsb. apply OWN; discriminate.
        - cbn in O1. injection O1 as <- <-. exists vsb. apply OWN; discriminate. }
      assert (loops o1 -> ob1 = o1) as LO.
      { intros L. destruct ob1; cbn in O1; try (injection O1 as <- <-; reflexivity); exfalso.
        - pose proof (proj1 (proj2 (exit_sound w n)) _ _ _ _ _ false O1) as X.
          destruct o1; try destruct L; cbn in X; rewrite X in F4; auto; discriminate.
        - pose proof (proj2 (proj2 (exit_sound w n)) _ _ _ _ _ _ false O1) as X.
          destruct o1; try destruct L; cbn in X; rewrite X in F2; auto; discriminate. }
      destruct (execs w n hb f u1) as [[o2 u2]|] eqn:XF; [|discriminate].
      assert (o = (match o2 with ONormal => o1 | _ => o2 end) /\ u' = u2) as [-> ->].
      { destruct o2; injection HF as <- <-; auto. }
      destruct Dfin as [p Af]. rewrite <- !app_assoc in Af.
      destruct AR as [B1 B2 B3 B4 B5 B6 B7].
      destruct (run_finally n t hb f E lp o1 o2 u1 u2 vs1 p rest k Af AP XF F5 NW B1 B2 B3 B4 B5)
        as (RX & vs' & R' & G1 & G2 & G3 & G4 & G5).
      { intros L. apply LL. rewrite (LO L). exact L. }
      exists vs'. split; [eapply reach_steps; [exact S1|exact R']|].
      constructor; auto.
      + intros x Hx. rewrite G4. unfold with_code.
        destruct (tcode E lp _) as [[t0 m]|]; [destruct (x =? t0); [reflexivity|]|]; auto.
      + intros x Hx Hx'. rewrite G5. auto.
      + intros X e h' E' Ho. apply RX in Ho. subst o1. exfalso.
        destruct ob1; cbn in O1.
        * pose proof (proj1 (proj2 (raise_sound w WOK n)) _ _ _ _ _ O1). congruence.
        * discriminate.
        * destruct (match_h (handler_classes hs) 0 e0) as [j|] eqn:M.
          -- destruct (proj2 (proj2 (raise_sound w WOK n)) _ _ _ _ _ _ O1) as [Y|[Y ->]]; [congruence|].
             cbn [indirect_s] in X. rewrite Y, (proj1 (proj2 (raise_sound w WOK n)) _ _ _ _ _ XB) in X. discriminate.
          -- rewrite (HI e0 eq_refl M) in X. discriminate.
        * discriminate.
        * discriminate.
  Qed.

  Lemma sim_with n : sim_ss n -> forall t m b g E lp al hb u o u' k rest vs,
      exec w (S n) hb (SWith t m b) u = Some (o, u') ->
      supported_s g (SWith t m b) = true -> NoDup (ids_s (SWith t m b)) ->
      pre g E lp al hb (ids_s (SWith t m b)) u vs ->
      at_ P KStop (inl_s declared E lp al (SWith t m b) ++ rest) k ->
      dloc (def_s declared E lp al (SWith t m b)) ->
      lands (Run (inl_s declared E lp al (SWith t m b) ++ rest) k vs) rest k E lp o
            (ids_s (SWith t m b)) (indirect_s (SWith t m b)) u' vs.
  Proof.
    intros IH t m b g E lp al hb u o u' k rest vs H F N Pr A D.
    set (h := with_info t lp).
    cbn [exec] in H. cbn [supported_s] in F.
    apply andb_prop in F. destruct F as [F Fb]. apply andb_prop in F. destruct F as [F F3].
    apply andb_prop in F. destruct F as [F1 F2]. apply negb_true_iff in F1, F2, F3.
    cbn [ids_s] in *. inversion N as [|? ? N1 N2]; subst.
    pose proof (p_u _ _ _ _ _ _ _ _ Pr) as Hu.
    destruct Pr as [Prel Pwf Pfr Pnm _ Pres Perr].
    pose proof (r_with _ _ _ Prel F1) as NW. pose proof (r_hs _ _ _ Prel F2) as NH.
    assert (incl (ids_ss b) (t :: ids_ss b)) as Ib by (intros x X; right; exact X).
    cbn [def_s] in D. pose proof (dloc_l _ _ D) as Db. apply dloc_r in D.
    destruct D as [p Af]. rewrite <- app_assoc in Af. fold h in Db.
    assert (inl_s declared E lp al (SWith t m b) ++ rest =
            VEnter m :: VSetCode t 0 :: inl_ss declared (h :: E) lp al b ++ VGoto (LFinally t) :: VLabel (LPost t) :: rest) as EQ.
    { cbn [inl_s]. fold h. cbn [app]. rewrite <- app_assoc. reflexivity. }
    rewrite EQ in *. clear EQ.
    assert (at_ P KStop (VLabel (LPost t) :: rest) k) as AP.
    { eapply at_trans; [exact A|]. apply at_next. apply at_next. eapply at_trans; [apply at_app|]. apply at_next. apply at_here. }
    destruct (execs w n hb b (enter w m u)) as [[ob1 ub]|] eqn:XB; [|discriminate].
    set (gb := {| c_handlers := c_handlers g; c_with := true; c_fin := c_fin g;
                  c_loop := c_loop g; c_loop_fin := c_loop_fin g; c_names := c_names g |}) in *.
    set (vs0 := set_u (enter w m (vu vs)) vs).
    assert (pre gb (h :: E) lp al hb (ids_ss b) (enter w m u) (set_code t 0 vs0)) as PB.
    { constructor; auto.
      - destruct Prel as [R1 R2 R3 R4]. constructor; cbn [gb c_handlers c_with c_fin c_loop c_loop_fin].
        + discriminate.
        + intros X y [<-|Y]; [reflexivity|]. apply NH. exact Y.
        + rewrite R3. reflexivity.
        + intros X. destruct (R4 X) as ((i & ->) & R5 & E2 & R6).
          split; [eauto|]. assert (same_loop (Some i) (h :: E) = h :: same_loop (Some i) E) as ->.
          { unfold h. cbn [same_loop filter tloop with_info]. rewrite Nat.eqb_refl. reflexivity. }
          split; [exact R5|]. exists E2. cbn [app]. f_equal. exact R6.
      - cbn [wf_env]. split; [intros _; auto|]. split; [discriminate|exact Pwf].
      - destruct Pfr as [P1 P2]. split.
        + intros y [<-|Y].
          * split; [exact N1|]. cbn. intros j Hj X. apply (P2 j Hj). apply Ib. exact X.
          * destruct (P1 y Y) as [Q1 Q2]. split; [intros X; apply Q1, Ib, X|].
            intros j Hj X. apply (Q2 j Hj). apply Ib. exact X.
        + intros j Hj X. apply (P2 j Hj). apply Ib. exact X.
      - intros x Hx. destruct (Pnm x Hx) as (t0 & e & B1 & B2 & B3 & B4 & B5). exists t0, e.
        repeat split; auto. cbn. intros [X|X]; [|auto]. apply B4. left. exact X.
      - cbn. rewrite Hu. reflexivity. }
    destruct (IH b gb (h :: E) lp al hb _ ob1 ub k (VGoto (LFinally t) :: VLabel (LPost t) :: rest)
                 (set_code t 0 vs0) XB Fb N2 PB) as (vsb & Rb & Qb).
    { eapply at_trans; [exact A|]. apply at_next, at_next, at_here. }
    { exact Db. }
    set (c0 := Run _ k vs).
    apply (reach_steps c0) in Rb; [|eapply steps_step; [reflexivity|]; apply steps_one; reflexivity].
    rewrite F3 in Qb.
    assert (~ loops ob1) as NL.
    { intros X. apply (proj1 (proj2 (loop_sound n)) _ _ _ _ _ _ XB Fb) in X. destruct X as [_ X]. discriminate. }
    assert (steps c0 (jump P (LFinally t) vsb) /\ arrive E t ob1 ub (t :: ids_ss b) vs0 vsb) as [S1 AR].
    { assert (ob1 = ONormal \/ ob1 <> ONormal) as [->|NN] by (destruct ob1; auto; right; discriminate).
      - cbn [reach] in Rb. split; [eapply steps_trans; [exact Rb|apply steps_one; reflexivity]|].
        destruct Qb as [Qu Qr Qe Qc Qs Qd]. constructor; auto.
        + rewrite Qc by exact N1. cbn. unfold upd. rewrite Nat.eqb_refl. reflexivity.
        + discriminate.
        + intros x Hx. rewrite Qc by (intros X; apply Hx; right; exact X). cbn. unfold upd.
          destruct (Nat.eqb_spec x t) as [->|]; [|reflexivity]. destruct Hx. left. reflexivity.
        + intros x Hx _. rewrite Qs; [reflexivity|intros X; apply Hx; right; exact X|].
          cbn. intros [= X]. apply Hx. left. exact X.
      - destruct (target_own h E lp ob1) as [T X]; auto; [intros L; destruct (NL L)|].
        split.
        + unfold reach in Rb. rewrite T in Rb. destruct ob1; [congruence|..]; exact Rb.
        + apply (arrive_own h E lp ob1 (ids_ss b) ub vs0 vsb T X N1 Qb). apply incl_refl. }
    destruct AR as [B1 B2 B3 B4 B5 B6 B7].
    set (arg := match ob1 with ORaise e => Some e | _ => None end).
    assert (exit_arg t vsb = arg) as EA.
    { unfold exit_arg. rewrite B1. unfold arg. destruct ob1; cbn; auto; destruct NL; exact I. }
    assert (o = ob1 /\ u' = fst (exit w m arg ub)) as [-> ->].
    { unfold arg. destruct ob1; try (injection H as <- <-; auto; fail).
      pose proof (NS m (Some e) ub) as X. destruct (exit w m (Some e) ub) as [ux sx]. cbn in X. subst sx.
      injection H as <- <-. auto. }
    set (vs2 := set_u (fst (exit w m arg ub)) vsb).
    assert (steps c0 (Run (finally_end declared E lp t ++ p) KStop vs2)) as S2.
    { eapply steps_trans; [exact S1|]. rewrite (jump_at _ _ _ _ Af). apply steps_one.
      cbn [vstep app]. rewrite EA, B3. reflexivity. }
    pose proof (run_finally_end E lp t ob1 p KStop vs2 NW B1 B2 B5 (fun L => False_ind _ (NL L))) as FE.
    assert (forall e, ob1 = ORaise e -> indirect_s (SWith t m b) = true) as HI.
    { intros e ->. cbn [indirect_s]. exact (proj1 (proj2 (raise_sound w WOK n)) _ _ _ _ _ XB). }
    assert (ob1 <> ONormal -> (exists vs', reach (Run (finally_end declared E lp t ++ p) KStop vs2) [] KStop E lp ob1 vs' /\
             vu vs' = vu vs2 /\ vres vs' = vres vs2 /\ vmerr vs' = err_of E ob1 /\
             (forall x, vcode vs' x = with_code (tcode E lp ob1) (vcode vs2) x) /\
             (forall x, verr vs' x = verr vs2 x)) ->
            lands c0 rest k E lp ob1 (t :: ids_ss b) (indirect_s (SWith t m b)) (fst (exit w m arg ub)) vs) as FIN.
    { intros NN (vs' & R' & G1 & G2 & G3 & G4 & G5). exists vs'. split.
      - eapply reach_steps; [exact S2|]. eapply reach_abrupt; [exact NN|exact R'].
      - constructor; auto.
        + rewrite G2. exact B4.
        + intros x Hx. rewrite G4. unfold with_code.
          destruct (tcode E lp ob1) as [[t0 n0]|]; [destruct (x =? t0); [reflexivity|]|]; apply B6; exact Hx.
        + intros x Hx Hx'. rewrite G5. apply B7; auto.
        + intros X e h' E' Ho. rewrite (HI e Ho) in X. discriminate. }
    destruct ob1; try (apply FIN; [discriminate|exact FE]).
    change (fst (exit w m arg ub)) with (vu vs2). apply lands_normal; auto.
    eapply steps_trans; [exact S2|]. eapply steps_trans; [exact FE|].
    rewrite (jump_at _ _ _ _ AP). apply steps_refl.
  Qed.

  Theorem simulation n : sim_s n /\ sim_ss n /\ sim_h n.
  Proof.
    induction n as [|n (IHs & IHss & IHh)].
    { repeat split; red; intros; discriminate. }
    split; [|split].
    - intros s g E lp al hb u o u' k rest vs H F N Pr A D.
      pose proof (p_u _ _ _ _ _ _ _ _ Pr) as Hu. pose proof (p_res _ _ _ _ _ _ _ _ Pr) as Hr.
      pose proof (p_err _ _ _ _ _ _ _ _ Pr) as He. pose proof (p_wf _ _ _ _ _ _ _ _ Pr) as Hw.
      destruct s.
      + cbn [exec] in H. injection H as <- <-.
        change (act w a u) with (vu (set_u (act w a u) vs)). apply lands_normal; auto.
        subst u. apply steps_one. reflexivity.
      + cbn [exec] in H. cbn [inl_s app].
        destruct (call w a u) as [u1 [e|]] eqn:C; injection H as <- <-.
        * pose proof (lands_raise E lp rest k (set_u u1 vs) e Hw Hr He) as (vs' & R & Q).
          exists vs'. split.
          -- eapply reach_steps; [|exact R]. apply steps_one. cbn [vstep]. rewrite Hu, C. reflexivity.
          -- destruct Q. constructor; auto.
        * assert (vu (set_err (errvar E) None (set_u u1 vs)) = u1) as <- by (destruct (errvar E); reflexivity).
          apply lands_normal.
          -- eapply steps_step; [cbn [vstep]; rewrite Hu, C; reflexivity|].
             apply run_no_err. apply get_set_err.
          -- destruct (errvar E); exact Hr.
          -- destruct (errvar E); [exact He|reflexivity].
          -- intros t _. destruct (errvar E); reflexivity.
          -- intros t _ X. destruct (errvar E); [|reflexivity]. cbn. unfold upd.
             destruct (Nat.eqb_spec t n0); [congruence|reflexivity].
      + cbn [exec] in H. cbn [supported_s] in F. unfold mem in F. apply existsb_exists in F.
        destruct F as (y & Hy & E1). apply Nat.eqb_eq in E1. subst y.
        destruct (p_names _ _ _ _ _ _ _ _ Pr x Hy) as (t & e & B1 & B2 & B3 & _).
        rewrite B2 in H. injection H as <- <-. cbn [inl_s]. rewrite B1.
        change (use w a e u) with (vu (set_u (use w a e u) vs)). apply lands_normal; auto.
        subst u. apply steps_one. cbn [app vstep get_err]. rewrite B3. reflexivity.
      + cbn [exec] in H. eapply sim_if; eauto.
      + eapply sim_while; eauto.
      + cbn [exec] in H. injection H as <- <-.
        destruct (loop_target _ _ _ (p_rel _ _ _ _ _ _ _ _ Pr) F) as [[i ->] FW].
        cbn [inl_s]. rewrite FW.
        destruct (first_fin (same_loop (Some i) E)) as [t|] eqn:FF.
        * exists (set_code t 3 vs). split.
          -- unfold reach, target. rewrite FF. eapply steps_step; [reflexivity|]. apply steps_one. reflexivity.
          -- constructor; auto; unfold tcode, target; rewrite ?FF; auto. intros; discriminate.
        * exists vs. split.
          -- unfold reach, target. rewrite FF. apply steps_one. reflexivity.
          -- constructor; auto; unfold tcode, target; rewrite ?FF; auto. intros; discriminate.
      + cbn [exec] in H. injection H as <- <-.
        destruct (loop_target _ _ _ (p_rel _ _ _ _ _ _ _ _ Pr) F) as [[i ->] FW].
        cbn [inl_s]. rewrite FW.
        destruct (first_fin (same_loop (Some i) E)) as [t|] eqn:FF.
        * exists (set_code t 4 vs). split.
          -- unfold reach, target. rewrite FF. eapply steps_step; [reflexivity|]. apply steps_one. reflexivity.
          -- constructor; auto; unfold tcode, target; rewrite ?FF; auto. intros; discriminate.
        * exists vs. split.
          -- unfold reach, target. rewrite FF. apply steps_one. reflexivity.
          -- constructor; auto; unfold tcode, target; rewrite ?FF; auto. intros; discriminate.
      + cbn [exec] in H. injection H as <- <-. cbn [inl_s].
        set (vs1 := match v with Some x => set_res (Some (value w x u)) vs | None => vs end).
        assert (forall r, steps (Run ((match v with Some x => [VSetRes x] | None => [] end) ++ r) k vs) (Run r k vs1)) as S0.
        { intros r. subst vs1 u. destruct v; [apply steps_one; reflexivity|apply steps_refl]. }
        assert (vu vs1 = u /\ vres vs1 = match v with Some x => Some (value w x u) | None => None end /\
                vmerr vs1 = None /\ vcode vs1 = vcode vs /\ verr vs1 = verr vs) as (G1 & G2 & G3 & G4 & G5).
        { subst vs1. destruct v; repeat split; auto. }
        rewrite <- app_assoc. unfold lands, reach, target.
        destruct (first_fw E) as [t|] eqn:FW.
        * exists (set_code t 1 vs1). split.
          -- eapply steps_trans; [apply S0|]. eapply steps_step; [reflexivity|]. apply steps_one. reflexivity.
          -- constructor; auto; unfold tcode, target; rewrite ?FW.
             ++ intros x _. cbn. rewrite G4. reflexivity.
             ++ intros x _ _. cbn. rewrite G5. reflexivity.
             ++ intros; discriminate.
        * exists vs1. split.
          -- eapply steps_trans; [apply S0|]. apply steps_one. reflexivity.
          -- constructor; auto; unfold tcode, target; rewrite ?FW.
             ++ intros y _. cbn. rewrite G4. reflexivity.
             ++ intros y _ _. cbn. rewrite G5. reflexivity.
             ++ intros; discriminate.
      + cbn [exec] in H. injection H as <- <-. cbn [inl_s app].
        pose proof (lands_raise E lp rest k vs (exc w x u) Hw Hr He) as (vs' & R & Q).
        exists vs'. split.
        * eapply reach_steps; [|exact R]. apply steps_one. cbn [vstep]. rewrite Hu. reflexivity.
        * rewrite Hu in Q. exact Q.
      + eapply sim_try; eauto.
      + eapply sim_with; eauto.
    - intros ss g E lp al hb u o u' k rest vs H F N Pr A D.
      destruct ss as [|s ss]; cbn [execs] in H.
      + injection H as <- <-. cbn [inl_ss app]. destruct Pr. subst u. apply lands_normal; auto using steps_refl.
      + cbn [supported] in F. apply andb_prop in F. destruct F as [F1 F2].
        cbn [ids_ss] in *. apply NoDup_app_inv in N. destruct N as [N1 N2].
        cbn [def_ss] in D. cbn [inl_ss] in *. rewrite <- app_assoc in *.
        destruct (exec w n hb s u) as [[o1 u1]|] eqn:X; [|discriminate].
        destruct (IHs s g E lp al hb u o1 u1 k (inl_ss declared E lp al ss ++ rest) vs X F1 N1
                    (pre_incl _ _ _ _ _ _ _ _ _ (incl_app_l _ _) Pr) A (dloc_l _ _ D)) as (vs1 & R1 & Q1).
        assert (indirect (SCons s ss) = false -> indirect_s s = false /\ indirect ss = false) as J.
        { cbn [indirect]. apply orb_false_iff. }
        destruct o1; try (injection H as <- <-; exists vs1; split;
          [eapply reach_abrupt; [discriminate|exact R1]|
           eapply post_incl; [apply incl_app_l| |exact Q1]; intros Z; apply (J Z)]; fail).
        destruct (IHss ss g E lp al hb u1 o u' k rest vs1 H F2 N2) as (vs2 & R2 & Q2).
        * eapply pre_incl; [apply incl_app_r|]. eapply pre_post; [|exact Pr|exact Q1]. apply incl_app_l.
        * eapply at_drop. exact A.
        * eapply dloc_r. exact D.
        * exists vs2. split.
          -- eapply reach_steps; [exact R1|exact R2].
          -- eapply post_seq; [| | |exact Q1|exact Q2]; [apply incl_app_l|apply incl_app_r|].
             intros Z. apply (J Z).
    - apply sim_handlers; assumption.
  Qed.

  (** Steps as a run of the machine. *)
  Lemma steps_run c c' : steps c c' -> vstep w P c' = None -> exists n, vrun w P n c = Some c'.
  Proof.
    induction 1 as [c|c c1 c2 S0 S1 IH]; intros X.
    - exists 0. cbn. rewrite X. reflexivity.
    - destruct (IH X) as [m Hm]. exists (S m). cbn [vrun]. rewrite S0. exact Hm.
  Qed.
End Sim.

Theorem method_agrees {U} (w : world U) declared ss u r u' :
  world_ok w -> no_suppress w -> NoDup (ids_ss ss) -> supported top ss = true ->
  py_calls w ss u r u' ->
  forall s0, vu s0 = u -> exists c, viper_ends w declared ss s0 c /\ viper_agrees declared r u' c.
Proof.
  intros WOK NS ND F (n & o & X & R) s0 V.
  set (P := tr_method declared ss).
  assert (forall l, cnt l P <= 1) as C by (intros l; apply method_labels; exact ND).
  set (s1 := set_err None None (set_res None s0)).
  set (r0 := [VGoto LEnd] ++ def_ss declared [] None [] ss ++ [VLabel LEnd]).
  assert (P = VNullRes :: VNullErr :: inl_ss declared [] None [] ss ++ r0) as EP by reflexivity.
  assert (steps w P (Run P KStop s0) (Run (inl_ss declared [] None [] ss ++ r0) KStop s1)) as S0.
  { eapply steps_step; [reflexivity|]. apply steps_one. reflexivity. }
  assert (at_ P KStop (inl_ss declared [] None [] ss ++ r0) KStop) as A.
  { rewrite EP. apply at_next, at_next, at_here. }
  assert (at_ P KStop [VLabel LEnd] KStop) as AL.
  { eapply at_trans; [exact A|]. eapply at_trans; [apply at_app|]. unfold r0. cbn [app]. apply at_next. apply at_app. }
  destruct (proj1 (proj2 (simulation w declared P WOK NS C n)) ss top [] None [] [] u o u' KStop r0 s1 X F ND)
    as (vs' & RR & Q).
  - constructor; auto.
    + constructor; cbn; try discriminate; try reflexivity; intros _ t [].
    + exact I.
    + split; [intros t []|discriminate].
    + intros x [].
  - exact A.
  - exists [VLabel LEnd]. eapply at_trans; [exact A|]. eapply at_trans; [apply at_app|]. apply at_next. apply at_here.
  - assert (forall v : vstate U, jump P LEnd v = Run [] KStop v) as JE by (intros v; apply jump_at; [exact C|exact AL]).
    unfold viper_ends. fold P.
    destruct Q as [Qu Qr Qe _ _ _].
    destruct o; cbn in R; try discriminate; injection R as <-.
    + cbn in RR. exists (Run [] KStop vs'). split.
      * apply steps_run; [|reflexivity]. eapply steps_trans; [exact S0|]. eapply steps_trans; [exact RR|].
        eapply steps_step; [reflexivity|]. rewrite JE. apply steps_refl.
      * exists vs'. auto.
    + unfold reach in RR. cbn in RR. rewrite JE in RR. exists (Run [] KStop vs'). split.
      * apply steps_run; [|reflexivity]. eapply steps_trans; [exact S0|exact RR].
      * exists vs'. auto.
    + unfold reach in RR. cbn in RR. destruct declared.
      * rewrite JE in RR. exists (Run [] KStop vs'). split.
        -- apply steps_run; [|reflexivity]. eapply steps_trans; [exact S0|exact RR].
        -- exists vs'. auto.
      * exists Failed. split; [|reflexivity].
        apply steps_run; [|reflexivity]. eapply steps_trans; [exact S0|exact RR].
Qed.

Lemma vrun_mono {U} (w : world U) P n : forall m c c', n <= m -> vrun w P n c = Some c' -> vrun w P m c = Some c'.
Proof.
  induction n as [|n IH]; intros m c c' L H; cbn [vrun] in H.
  - destruct (vstep w P c) eqn:S; [discriminate|]. injection H as <-. destruct m; cbn [vrun]; rewrite S; reflexivity.
  - destruct m; [lia|]. cbn [vrun]. destruct (vstep w P c); [|exact H]. apply IH; [lia|exact H].
Qed.

Lemma viper_ends_unique {U} (w : world U) declared ss s0 c c' :
  viper_ends w declared ss s0 c -> viper_ends w declared ss s0 c' -> c = c'.
Proof.
  intros [n H] [m H'].
  apply (vrun_mono w _ n (n + m)) in H; [|lia]. apply (vrun_mono w _ m (n + m)) in H'; [|lia]. congruence.
Qed.

Lemma c21_control_flow {U} (w : world U) declared ss u r u' :
  world_ok w -> no_suppress w -> NoDup (ids_ss ss) -> supported top ss = true ->
  py_calls w ss u r u' ->
  forall s0, vu s0 = u ->
    (exists c, viper_ends w declared ss s0 c) /\
    forall c, viper_ends w declared ss s0 c -> viper_agrees declared r u' c.
Proof.
  intros A B C D E s0 V. destruct (method_agrees w declared ss u r u' A B C D E s0 V) as (c & H1 & H2).
  split; [eauto|]. intros c' H'. rewrite <- (viper_ends_unique _ _ _ _ _ _ H1 H'). exact H2.
Qed.

Lemma c22_with_exit {U} (w : world U) declared t m b n o u u1 r :
  world_ok w -> no_suppress w -> NoDup (t :: ids_ss b) -> indirect b = false ->
  supported {| c_handlers := false; c_with := true; c_fin := false; c_loop := false;
               c_loop_fin := false; c_names := [] |} b = true ->
  execs w n [] b (enter w m u) = Some (o, u1) -> py_end o = Some r ->
  forall s0, vu s0 = u ->
    (exists c, viper_ends w declared (SCons (SWith t m b) SNil) s0 c) /\
    forall c, viper_ends w declared (SCons (SWith t m b) SNil) s0 c ->
      viper_agrees declared r
        (fst (exit w m (match r with Raises e => Some e | Returns _ => None end) u1)) c.
Proof.
  intros WOK NS ND I F X R s0 V.
  apply (c21_control_flow w declared (SCons (SWith t m b) SNil) u).
  - exact WOK.
  - exact NS.
  - cbn. rewrite app_nil_r. exact ND.
  - cbn [supported supported_s top c_with c_handlers c_fin c_loop c_loop_fin c_names negb andb]. rewrite I, F. reflexivity.
  - destruct n as [|n']; [discriminate|].
    exists (S (S (S n'))), o. split; [|exact R].
    cbn [execs]. cbn [exec]. rewrite X.
    destruct o; cbn in R; try discriminate; injection R as <-; try reflexivity.
    pose proof (NS m (Some e) u1) as Y. destruct (exit w m (Some e) u1) as [ux sx]. cbn in Y. subst sx. reflexivity.
  - exact V.
Qed.
