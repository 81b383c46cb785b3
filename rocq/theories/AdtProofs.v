(** Proofs about the ADT encoding. *)
From Coq Require Import List String Ascii NArith ZArith Bool Lia.
From Verif Require Import AdtModel AdtSpec.
Import ListNotations.

(** ** Binding lists of variables *)

Section Eval.
Variable w : world.
Variable I : interp.

Fixpoint binds (vs : list (var * srt)) (l : list (uni I)) (e : env I) : env I :=
  match vs, l with
  | (x, _) :: r, v :: l' => binds r l' (upd I e x v)
  | _, _ => e
  end.

Definition okv (vs : list (var * srt)) (l : list (uni I)) : Prop :=
  Forall2 (fun xs v => has I (snd xs) v) vs l.

Lemma all_vals_iff vs (k : env I -> Prop) e :
  all_vals I vs k e <-> forall l, okv vs l -> k (binds vs l e).
Proof.
  revert e. induction vs as [|[x s] vs IH]; intro e; simpl.
  - split.
    + intros H l O. inversion O; subst. exact H.
    + intro H. exact (H [] (Forall2_nil _)).
  - split.
    + intros H l O. inversion O; subst. simpl. apply IH; auto.
    + intros H v Hv. apply IH. intros l O. apply (H (v :: l)). constructor; auto.
Qed.

Lemma okv1 x s u : has I s u -> okv [(x, s)] [u].
Proof. intro H. constructor; [exact H|constructor]. Qed.

Lemma upd_same e x v : upd I e x v x = v.
Proof. unfold upd. destruct (var_eq_dec x x); congruence. Qed.

Lemma upd_other e x v y : y <> x -> upd I e x v y = e y.
Proof. unfold upd. intro N. destruct (var_eq_dec y x); congruence. Qed.

Lemma binds_other vs l e y : ~ In y (map fst vs) -> binds vs l e y = e y.
Proof.
  revert l e. induction vs as [|[x s] vs IH]; intros [|v l] e N; simpl in *; auto.
  rewrite IH by tauto. apply upd_other. intro E. apply N. left. congruence.
Qed.

Lemma binds_app vs1 vs2 l1 l2 e : List.length vs1 = List.length l1 ->
  binds (vs1 ++ vs2) (l1 ++ l2) e = binds vs2 l2 (binds vs1 l1 e).
Proof.
  revert l1 e. induction vs1 as [|[x s] vs1 IH]; intros [|v l1] e L; simpl in *; try discriminate; auto.
Qed.

Variable a : adt.

Definition okl (fs : list fld) (l : list (uni I)) : Prop :=
  Forall2 (fun f v => has I (field_sort a (f_ty f)) v) fs l.

Lemma okv_params mk i fs l : okv (params_decl a mk i fs) l <-> okl fs l.
Proof.
  revert i l. induction fs as [|f fs IH]; intros i l; simpl; split; intro H; inversion H; subst;
    constructor; auto; eapply IH; eauto.
Qed.

Lemma params_vars mk i fs y : In y (map fst (params_decl a mk i fs)) -> exists j, i <= j /\ y = mk j.
Proof.
  revert i. induction fs as [|f fs IH]; intros i; simpl; [tauto|]. intros [E|H].
  - exists i. auto.
  - destruct (IH _ H) as (j & L & E). exists j. split; [lia|auto].
Qed.

Lemma params_eval mk : (forall i j, mk i = mk j -> i = j) -> forall fs i l e, okl fs l ->
  map (ev I (binds (params_decl a mk i fs) l e)) (params_use mk i fs) = l.
Proof.
  intro Inj. induction fs as [|f fs IH]; intros i l e O; inversion O; subst; simpl; auto.
  f_equal.
  - rewrite binds_other; [apply upd_same|]. intro H.
    destruct (params_vars _ _ _ _ H) as (j & L & E). apply Inj in E. lia.
  - apply IH. assumption.
Qed.

Lemma params_eval_other mk mk' : (forall i j, mk i <> mk' j) -> forall fs i e l fs' i',
  map (ev I (binds (params_decl a mk' i' fs') l e)) (params_use mk i fs) =
  map (ev I e) (params_use mk i fs).
Proof.
  intro D. induction fs as [|f fs IH]; intros i e l fs' i'; simpl; auto. f_equal; [|apply IH].
  apply binds_other. intro H. destruct (params_vars _ _ _ _ H) as (j & _ & E). exact (D _ _ E).
Qed.

Lemma VA_inj i j : VA i = VA j -> i = j. Proof. congruence. Qed.
Lemma VB_inj i j : VB i = VB j -> i = j. Proof. congruence. Qed.

Lemma conjoin_iff l e : holds w I (conjoin l) e <-> forall p, In p l -> holds w I p e.
Proof.
  induction l as [|p l IH]; simpl; [firstorder|].
  destruct l as [|q l].
  - simpl. firstorder (subst; auto).
  - change (holds w I (And p (conjoin (q :: l))) e <-> forall p0, p = p0 \/ In p0 (q :: l) -> holds w I p0 e).
    cbn [holds]. rewrite IH. firstorder (subst; auto).
Qed.

Lemma disjoin_iff l e : l <> [] -> holds w I (disjoin l) e <-> exists p, In p l /\ holds w I p e.
Proof.
  induction l as [|p l IH]; simpl; [congruence|]. intros _.
  destruct l as [|q l].
  - simpl. firstorder (subst; auto).
  - change (holds w I (Or p (disjoin (q :: l))) e <-> exists p0, (p = p0 \/ In p0 (q :: l)) /\ holds w I p0 e).
    cbn [holds]. rewrite IH by congruence. split.
    + intros [H|(r & Hr & H)]; [exists p; auto|exists r; auto].
    + intros (r & [<-|Hr] & H); [left; exact H|right; exists r; auto].
Qed.

(** ** What the axioms say *)

Definition Cn c l := ap I (s_cons a c) l.
Definition Dc c f u := ap I (s_decons a c f) [u].
Definition Ct u := ap I (s_cons_type a) [u].
Definition Kc c := ap I (s_const a c) [].
Definition Is c u := ap I (s_is a c) [u].
Definition Bx u := ap I (s_box a) [u].
Definition Ub r := ap I (s_unbox a) [r].
Definition isA u := has I (SAdt (a_cls a)) u.

Record sem : Prop := {
  s_eq : forall c l1 l2, In c (a_cons a) -> c_fields c <> [] ->
    okl (c_fields c) l1 -> okl (c_fields c) l2 -> (Cn c l1 = Cn c l2 <-> l1 = l2);
  s_proj : forall c l i f v, In c (a_cons a) -> okl (c_fields c) l ->
    nth_error (c_fields c) i = Some f -> nth_error l i = Some v -> Dc c f (Cn c l) = v;
  s_dty : forall c f k u, In c (a_cons a) -> In f (c_fields c) -> f_ty f = FCls k -> isA u ->
    w_sub w (tyof I (Dc c f u)) k = true;
  s_eta : forall c u, In c (a_cons a) -> c_fields c <> [] -> isA u -> truth I (Is c u) ->
    u = Cn c (map (fun f => Dc c f u) (c_fields c));
  s_kst : forall c l, In c (a_cons a) -> okl (c_fields c) l -> Ct (Cn c l) = Kc c;
  s_con : forall u, isA u -> exists c, In c (a_cons a) /\ Ct u = Kc c;
  s_isb : forall c u, In c (a_cons a) -> isA u -> (Ct u = Kc c <-> truth I (Is c u));
  s_cls : forall r, has I SRef r -> w_sub w (tyof I r) (a_cls a) = true ->
    exists c, In c (a_cons a) /\ tyof I r = c_cls c;
  s_bx1 : forall u, isA u -> w_sub w (tyof I (Bx u)) (a_cls a) = true;
  s_bx2 : forall u, isA u -> Ub (Bx u) = u;
  s_bx3 : forall c u, In c (a_cons a) -> isA u -> (truth I (Is c u) <-> tyof I (Bx u) = c_cls c);
  s_bx4 : forall u v, isA u -> isA v -> (u = v <-> Bx u = Bx v);
  s_ubx : forall r, has I SRef r -> w_sub w (tyof I r) (a_cls a) = true -> Bx (Ub r) = r }.

Lemma map_eq_iff (A B : Type) (f g : A -> B) l : map f l = map g l <-> forall x, In x l -> f x = g x.
Proof.
  induction l; simpl; [firstorder|]. split.
  - intros E. injection E as E1 E2. intros x [<-|H]; auto. apply IHl; auto.
  - intro H. f_equal; [auto|apply IHl; auto].
Qed.

Lemma combine_eqs (e : env I) : forall s t, List.length s = List.length t ->
  (forall p, In p (map (fun st => Eq (fst st) (snd st)) (combine s t)) -> holds w I p e) <->
  map (ev I e) s = map (ev I e) t.
Proof.
  induction s as [|x s IH]; intros [|y t] L; simpl in *; try discriminate; [firstorder|].
  split.
  - intro H. f_equal; [exact (H _ (or_introl eq_refl))|]. apply (IH t); [lia|]. intros p Hp. apply H. auto.
  - intros E p [<-|Hp]; simpl; [congruence|]. injection E as E1 E2.
    apply (proj2 (IH t ltac:(lia)) E2). exact Hp.
Qed.

Lemma params_use_length mk i fs : List.length (params_use mk i fs) = List.length fs.
Proof. revert i. induction fs; simpl; auto. Qed.

Lemma okl_length fs l : okl fs l -> List.length fs = List.length l.
Proof. intro H. induction H; simpl; congruence. Qed.

Lemma has_fields_iff c : has_fields c = true <-> c_fields c <> [].
Proof. unfold has_fields. destruct (c_fields c); split; congruence. Qed.

Lemma params_decl_length mk i fs : List.length (params_decl a mk i fs) = List.length fs.
Proof. revert i. induction fs; simpl; auto. Qed.

Lemma eval_two fs l1 l2 (e : env I) : okl fs l1 -> okl fs l2 ->
  let e' := binds (params_decl a VA 0 fs ++ params_decl a VB 0 fs) (l1 ++ l2) e in
  map (ev I e') (params_use VA 0 fs) = l1 /\ map (ev I e') (params_use VB 0 fs) = l2.
Proof.
  intros O1 O2 e'. unfold e'. rewrite binds_app by (rewrite params_decl_length; apply okl_length; auto).
  split.
  - rewrite params_eval_other by congruence. apply params_eval; [apply VA_inj|auto].
  - apply params_eval; [apply VB_inj|auto].
Qed.

Lemma okv_two fs l : okv (params_decl a VA 0 fs ++ params_decl a VB 0 fs) l ->
  exists l1 l2, l = l1 ++ l2 /\ okl fs l1 /\ okl fs l2.
Proof.
  intro O. apply Forall2_app_inv_l in O. destruct O as (l1 & l2 & O1 & O2 & ->).
  exists l1, l2. split; [auto|]. split; eapply okv_params; eauto.
Qed.

Definition hold_all (l : list fm) := forall p e, In p l -> holds w I p e.

Lemma hold_all_app l m : hold_all (l ++ m) <-> hold_all l /\ hold_all m.
Proof.
  unfold hold_all. split.
  - intro H. split; intros; apply H; apply in_or_app; auto.
  - intros [H1 H2] p e Hp. apply in_app_or in Hp. destruct Hp; auto.
Qed.

Lemma hold_all_one p : hold_all [p] <-> forall e, holds w I p e.
Proof. unfold hold_all. simpl. firstorder (subst; auto). Qed.

Variable e0 : env I.

Lemma eq_axioms_iff : hold_all (equality_axioms a) <->
  forall c l1 l2, In c (a_cons a) -> c_fields c <> [] ->
    okl (c_fields c) l1 -> okl (c_fields c) l2 -> (Cn c l1 = Cn c l2 <-> l1 = l2).
Proof.
  unfold hold_all, equality_axioms. split.
  - intros H c l1 l2 Hc Hf O1 O2.
    assert (Hi : holds w I (All (params_decl a VA 0 (c_fields c) ++ params_decl a VB 0 (c_fields c))
         (Iff (Eq (App (s_cons a c) (params_use VA 0 (c_fields c))) (App (s_cons a c) (params_use VB 0 (c_fields c))))
              (conjoin (map (fun st => Eq (fst st) (snd st))
                 (combine (params_use VA 0 (c_fields c)) (params_use VB 0 (c_fields c))))))) e0).
    { apply H. apply in_flat_map. exists c. split; [auto|]. apply has_fields_iff in Hf. rewrite Hf. left. reflexivity. }
    cbn [holds] in Hi. rewrite all_vals_iff in Hi. specialize (Hi (l1 ++ l2)).
    destruct (eval_two (c_fields c) l1 l2 e0 O1 O2) as [E1 E2].
    assert (Ov : okv (params_decl a VA 0 (c_fields c) ++ params_decl a VB 0 (c_fields c)) (l1 ++ l2)).
    { apply Forall2_app; apply okv_params; auto. }
    specialize (Hi Ov). rewrite conjoin_iff, combine_eqs in Hi by (rewrite !params_use_length; auto).
    cbn [ev] in Hi. rewrite E1, E2 in Hi. exact Hi.
  - intros H p e Hp. apply in_flat_map in Hp. destruct Hp as (c & Hc & Hp).
    destruct (has_fields c) eqn:Hf; [|contradiction]. apply has_fields_iff in Hf.
    destruct Hp as [<-|[]]. cbn [holds]. apply all_vals_iff. intros l Ol.
    destruct (okv_two _ _ Ol) as (l1 & l2 & -> & O1 & O2).
    destruct (eval_two (c_fields c) l1 l2 e O1 O2) as [E1 E2].
    rewrite conjoin_iff, combine_eqs by (rewrite !params_use_length; auto).
    cbn [ev]. rewrite E1, E2. apply H; auto.
Qed.

Lemma nth_combine (A B : Type) (l : list A) (m : list B) i x y :
  nth_error l i = Some x -> nth_error m i = Some y -> In (x, y) (combine l m).
Proof.
  revert l m. induction i; intros [|u l] [|v m]; simpl; try discriminate.
  - intros [= ->] [= ->]. auto.
  - intros. right. eapply IHi; eauto.
Qed.

Lemma combine_nth (A B : Type) (l : list A) (m : list B) x y :
  In (x, y) (combine l m) -> exists i, nth_error l i = Some x /\ nth_error m i = Some y.
Proof.
  revert m. induction l; intros [|v m]; simpl; try contradiction.
  intros [[= -> ->]|H].
  - exists 0. auto.
  - destruct (IHl _ H) as (i & ? & ?). exists (S i). auto.
Qed.

Lemma proj_axioms_iff : hold_all (decons_over_cons_axioms a) <->
  forall c l i f v, In c (a_cons a) -> okl (c_fields c) l ->
    nth_error (c_fields c) i = Some f -> nth_error l i = Some v -> Dc c f (Cn c l) = v.
Proof.
  unfold hold_all, decons_over_cons_axioms. split.
  - intros H c l i f v Hc O Hf Hv.
    assert (NE : c_fields c <> []) by (intro E; rewrite E in Hf; destruct i; discriminate).
    pose (args := params_use VA 0 (c_fields c)).
    assert (Hi : holds w I (conjoin (map (fun fa => All (params_decl a VA 0 (c_fields c))
              (Eq (App (s_decons a c (fst fa)) [App (s_cons a c) args]) (snd fa))) (combine (c_fields c) args))) e0).
    { apply H. apply in_flat_map. exists c. split; [auto|]. apply has_fields_iff in NE. rewrite NE. left. reflexivity. }
    rewrite conjoin_iff in Hi.
    assert (L : List.length args = List.length (c_fields c)) by apply params_use_length.
    destruct (nth_error args i) as [t|] eqn:Et.
    2:{ apply nth_error_None in Et.
        assert (nth_error (c_fields c) i <> None) by congruence. apply nth_error_Some in H0. lia. }
    specialize (Hi _ (in_map _ _ _ (nth_combine _ _ _ _ _ _ _ Hf Et))).
    cbn [holds fst snd] in Hi. rewrite all_vals_iff in Hi. specialize (Hi l (proj2 (okv_params _ _ _ _) O)).
    pose proof (params_eval VA VA_inj (c_fields c) 0 l e0 O) as E. fold args in E.
    cbn [ev map] in Hi. rewrite E in Hi.
    assert (Ev : ev I (binds (params_decl a VA 0 (c_fields c)) l e0) t = v).
    { assert (X : nth_error (map (ev I (binds (params_decl a VA 0 (c_fields c)) l e0)) args) i = Some v) by (rewrite E; auto).
      rewrite nth_error_map, Et in X. simpl in X. congruence. }
    rewrite Ev in Hi. exact Hi.
  - intros H p e Hp. apply in_flat_map in Hp. destruct Hp as (c & Hc & Hp).
    destruct (has_fields c) eqn:Hf; [|contradiction]. destruct Hp as [<-|[]].
    apply conjoin_iff. intros p Hp. apply in_map_iff in Hp. destruct Hp as ([f t] & <- & Hft).
    apply combine_nth in Hft. destruct Hft as (i & Hi & Ht).
    cbn [holds fst snd]. apply all_vals_iff. intros l Ol. apply okv_params in Ol.
    pose proof (params_eval VA VA_inj (c_fields c) 0 l e Ol) as E.
    cbn [ev map]. rewrite E. apply (H c l i f); auto.
    rewrite <- E at 1. rewrite nth_error_map, Ht. reflexivity.
Qed.

Lemma dty_axioms_iff : hold_all (decons_type_axioms a) <->
  forall c f k u, In c (a_cons a) -> In f (c_fields c) -> f_ty f = FCls k -> isA u ->
    w_sub w (tyof I (Dc c f u)) k = true.
Proof.
  unfold hold_all, decons_type_axioms. split.
  - intros H c f k u Hc Hf Ht Hu.
    set (fs := flat_map (decons_type_forall a c) (c_fields c)) in *.
    assert (Hin : In (All [(VAdt, SAdt (a_cls a))] (TypeSub (App (s_decons a c f) [Var VAdt]) k)) fs).
    { apply in_flat_map. exists f. split; [auto|]. unfold decons_type_forall. rewrite Ht. left. reflexivity. }
    assert (Hi : holds w I (conjoin fs) e0).
    { apply H. apply in_flat_map. exists c. split; [auto|]. fold fs. destruct fs; [contradiction|]. left. reflexivity. }
    rewrite conjoin_iff in Hi. specialize (Hi _ Hin). cbn [holds] in Hi. rewrite all_vals_iff in Hi.
    specialize (Hi [u] (okv1 _ _ _ Hu)).
    cbn [binds ev map] in Hi. rewrite upd_same in Hi. exact Hi.
  - intros H p e Hp. apply in_flat_map in Hp. destruct Hp as (c & Hc & Hp).
    assert (Hp' : p = conjoin (flat_map (decons_type_forall a c) (c_fields c))).
    { destruct (flat_map (decons_type_forall a c) (c_fields c)); [contradiction|]. destruct Hp as [<-|[]]. reflexivity. }
    rewrite Hp'. apply conjoin_iff. intros q Hq. apply in_flat_map in Hq. destruct Hq as (f & Hf & Hq).
    unfold decons_type_forall in Hq. destruct (f_ty f) eqn:Ht; try contradiction. destruct Hq as [<-|[]].
    cbn [holds]. apply all_vals_iff. intros l Ol. inversion Ol; subst. inversion H4; subst.
    cbn [binds ev map]. rewrite upd_same. apply H with (k := c0); auto.
Qed.

Ltac one_var H u Hu := rewrite all_vals_iff in H; specialize (H [u] (okv1 _ _ _ Hu));
  cbn [binds ev map] in H; rewrite ?upd_same in H.

Lemma map_ev_decons c u e fs :
  map (ev I (upd I e VObj u)) (map (fun f => App (s_decons a c f) [Var VObj]) fs) = map (fun f => Dc c f u) fs.
Proof. rewrite map_map. apply map_ext. intro f. cbn [ev map]. rewrite upd_same. reflexivity. Qed.

Lemma eta_axioms_iff : hold_all (cons_over_decons_axioms a) <->
  forall c u, In c (a_cons a) -> c_fields c <> [] -> isA u -> truth I (Is c u) ->
    u = Cn c (map (fun f => Dc c f u) (c_fields c)).
Proof.
  unfold hold_all, cons_over_decons_axioms. split.
  - intros H c u Hc Hf Hu Hi.
    assert (G : holds w I (All [(VObj, SAdt (a_cls a))] (Imp (Hold (App (s_is a c) [Var VObj]))
       (Eq (Var VObj) (App (s_cons a c) (map (fun f => App (s_decons a c f) [Var VObj]) (c_fields c)))))) e0).
    { apply H. apply in_flat_map. exists c. split; [auto|]. apply has_fields_iff in Hf. rewrite Hf. left. reflexivity. }
    cbn [holds] in G. one_var G u Hu.
    rewrite map_ev_decons in G. apply G. exact Hi.
  - intros H p e Hp. apply in_flat_map in Hp. destruct Hp as (c & Hc & Hp).
    destruct (has_fields c) eqn:Hf; [|contradiction]. apply has_fields_iff in Hf. destruct Hp as [<-|[]].
    cbn [holds]. apply all_vals_iff. intros l Ol. inversion Ol; subst. inversion H4; subst.
    cbn [binds ev map]. rewrite !upd_same, map_ev_decons. intro T. apply H; auto.
Qed.

Lemma kst_axioms_iff : hold_all (cons_type_const_axioms a) <->
  forall c l, In c (a_cons a) -> okl (c_fields c) l -> Ct (Cn c l) = Kc c.
Proof.
  unfold hold_all, cons_type_const_axioms. split.
  - intros H c l Hc O. specialize (H _ e0 (in_map _ _ _ Hc)). cbn beta zeta in H.
    destruct (has_fields c) eqn:Hf.
    + cbn [holds] in H. rewrite all_vals_iff in H. specialize (H l (proj2 (okv_params _ _ _ _) O)).
      cbn [ev map] in H. rewrite (params_eval VA VA_inj (c_fields c) 0 l e0 O) in H. exact H.
    + unfold has_fields in Hf. destruct (c_fields c) eqn:Ef; [|discriminate]. inversion O; subst. exact H.
  - intros H p e Hp. apply in_map_iff in Hp. destruct Hp as (c & <- & Hc). cbn zeta.
    destruct (has_fields c) eqn:Hf.
    + cbn [holds]. apply all_vals_iff. intros l Ol. apply okv_params in Ol. cbn [ev map].
      rewrite (params_eval VA VA_inj (c_fields c) 0 l e Ol). apply H; auto.
    + unfold has_fields in Hf. specialize (H c []). destruct (c_fields c) eqn:Ef; [|discriminate].
      cbn [holds ev map params_use]. apply H; auto. constructor.
Qed.

Lemma con_axioms_iff : a_cons a <> [] -> hold_all (constrain_cons_type_axioms a) <->
  forall u, isA u -> exists c, In c (a_cons a) /\ Ct u = Kc c.
Proof.
  intro NE. unfold constrain_cons_type_axioms. rewrite hold_all_one.
  assert (NE' : forall A (f : cons -> A), map f (a_cons a) <> []) by (intros; destruct (a_cons a); [congruence|discriminate]).
  split.
  - intros H u Hu. specialize (H e0). cbn [holds] in H. rewrite all_vals_iff in H.
    specialize (H [u] (okv1 _ _ _ Hu)).
    rewrite disjoin_iff in H by apply NE'. destruct H as (p & Hp & H). apply in_map_iff in Hp.
    destruct Hp as (c & <- & Hc). exists c. split; [auto|]. cbn [holds binds ev map] in H. rewrite upd_same in H. exact H.
  - intros H e. cbn [holds]. apply all_vals_iff. intros l Ol. inversion Ol; subst. inversion H4; subst.
    apply disjoin_iff; [apply NE'|]. destruct (H y) as (c & Hc & E); [auto|].
    exists (Eq (App (s_cons_type a) [Var VObj]) (App (s_const a c) [])). split.
    + apply in_map_iff. eauto.
    + cbn [holds binds ev map]. rewrite upd_same. exact E.
Qed.

Lemma isb_axioms_iff : hold_all (cons_type_bool_axioms a) <->
  forall c u, In c (a_cons a) -> isA u -> (Ct u = Kc c <-> truth I (Is c u)).
Proof.
  unfold hold_all, cons_type_bool_axioms. split.
  - intros H c u Hc Hu. specialize (H _ e0 (in_map _ _ _ Hc)). cbn [holds] in H.
    one_var H u Hu. exact H.
  - intros H p e Hp. apply in_map_iff in Hp. destruct Hp as (c & <- & Hc).
    cbn [holds]. apply all_vals_iff. intros l Ol. inversion Ol; subst. inversion H4; subst.
    cbn [binds ev map]. rewrite upd_same. apply H; auto.
Qed.

Lemma cls_axioms_iff : a_cons a <> [] -> hold_all (subclass_axioms a) <->
  forall r, has I SRef r -> w_sub w (tyof I r) (a_cls a) = true ->
    exists c, In c (a_cons a) /\ tyof I r = c_cls c.
Proof.
  intro NE. unfold subclass_axioms. rewrite hold_all_one.
  assert (NE' : forall A (f : cons -> A), map f (a_cons a) <> []) by (intros; destruct (a_cons a); [congruence|discriminate]).
  split.
  - intros H r Hr Hs. specialize (H e0). cbn [holds] in H. rewrite all_vals_iff in H.
    specialize (H [r] (okv1 _ _ _ Hr)).
    rewrite disjoin_iff in H by apply NE'. cbn [binds ev] in H. rewrite upd_same in H. destruct (H Hs) as (p & Hp & G).
    apply in_map_iff in Hp. destruct Hp as (c & <- & Hc). exists c. split; [auto|].
    cbn [holds ev] in G. rewrite upd_same in G. exact G.
  - intros H e. cbn [holds]. apply all_vals_iff. intros l Ol. inversion Ol; subst. inversion H4; subst.
    rewrite disjoin_iff by apply NE'. cbn [binds ev]. rewrite upd_same. intro Hs.
    destruct (H y) as (c & Hc & E); [auto|auto|]. exists (TypeIs (Var VRef) (c_cls c)). split.
    + apply in_map_iff. eauto.
    + cbn [holds ev]. rewrite upd_same. exact E.
Qed.

Lemma box_axiom_iff : a_cons a <> [] -> (forall e, holds w I (box_axiom a) e) <->
  (forall u, isA u -> w_sub w (tyof I (Bx u)) (a_cls a) = true) /\
  (forall u, isA u -> Ub (Bx u) = u) /\
  (forall c u, In c (a_cons a) -> isA u -> (truth I (Is c u) <-> tyof I (Bx u) = c_cls c)) /\
  (forall u v, isA u -> isA v -> (u = v <-> Bx u = Bx v)).
Proof.
  intro NE. unfold box_axiom. split.
  - intro H. specialize (H e0). cbn [holds] in H. rewrite all_vals_iff in H.
    assert (G : forall u, isA u -> forall p, In p (box_post a) -> holds w I p (upd I e0 VObj u)).
    { intros u Hu. specialize (H [u] (okv1 _ _ _ Hu)).
      cbn [binds] in H. apply conjoin_iff. exact H. }
    clear H. repeat apply conj.
    + intros u Hu. specialize (G u Hu _ (or_introl eq_refl)). cbn [holds ev map] in G. rewrite upd_same in G. exact G.
    + intros u Hu. specialize (G u Hu _ (or_intror (or_introl eq_refl))). cbn [holds ev map] in G. rewrite upd_same in G. exact G.
    + intros c u Hc Hu. specialize (G u Hu (Iff (Hold (App (s_is a c) [Var VObj])) (TypeIs (App (s_box a) [Var VObj]) (c_cls c)))).
      cbn [holds ev map] in G. rewrite upd_same in G. apply G. right. right. apply in_flat_map. exists c. split; [auto|]. left. reflexivity.
    + intros u v Hu Hv. destruct (a_cons a) as [|c cs] eqn:Ec; [congruence|].
      specialize (G u Hu (All [(VOther, SAdt (a_cls a))]
        (Iff (Eq (Var VObj) (Var VOther)) (Eq (App (s_box a) [Var VObj]) (App (s_box a) [Var VOther]))))).
      cbn [holds] in G.
      assert (K : In (All [(VOther, SAdt (a_cls a))]
        (Iff (Eq (Var VObj) (Var VOther)) (Eq (App (s_box a) [Var VObj]) (App (s_box a) [Var VOther])))) (box_post a)).
      { right. right. apply in_flat_map. exists c. rewrite Ec. split; [left; auto|]. right. left. reflexivity. }
      specialize (G K). rewrite all_vals_iff in G.
      specialize (G [v] (okv1 _ _ _ Hv)).
      cbn [binds ev map] in G. rewrite upd_same, upd_other, upd_same in G by congruence. exact G.
  - intros (H1 & H2 & H3 & H4) e. cbn [holds]. apply all_vals_iff. intros l Ol. inversion Ol as [|? u ? ? Hu Ol']; subst.
    inversion Ol'; subst. cbn [binds]. cbn [snd] in Hu. apply conjoin_iff. intros p [<-|[<-|Hp]].
    + cbn [holds ev map]. rewrite upd_same. apply H1. exact Hu.
    + cbn [holds ev map]. rewrite upd_same. apply H2. exact Hu.
    + apply in_flat_map in Hp. destruct Hp as (c & Hc & [<-|[<-|[]]]).
      * cbn [holds ev map]. rewrite upd_same. apply H3; auto.
      * cbn [holds]. apply all_vals_iff. intros l Ol2. inversion Ol2 as [|? v ? ? Hv Ol3]; subst. inversion Ol3; subst.
        cbn [binds ev map]. rewrite upd_same, upd_other, upd_same by congruence. apply H4; auto.
Qed.

Lemma unbox_axiom_iff : (forall e, holds w I (unbox_axiom a) e) <->
  forall r, has I SRef r -> w_sub w (tyof I r) (a_cls a) = true -> Bx (Ub r) = r.
Proof.
  unfold unbox_axiom. split.
  - intros H r Hr Hs. specialize (H e0). cbn [holds] in H. one_var H r Hr. exact (H Hs).
  - intros H e. cbn [holds]. apply all_vals_iff. intros l Ol. inversion Ol; subst. inversion H4; subst.
    cbn [binds ev map]. rewrite upd_same. intro. apply H; auto.
Qed.

Lemma axioms_sem : a_cons a <> [] -> hold_all (adt_axioms a) <-> sem.
Proof.
  intro NE. unfold adt_axioms, domain_axioms. rewrite !hold_all_app.
  rewrite eq_axioms_iff, proj_axioms_iff, dty_axioms_iff, eta_axioms_iff, kst_axioms_iff,
    (con_axioms_iff NE), isb_axioms_iff, (cls_axioms_iff NE).
  assert (E : hold_all [box_axiom a; unbox_axiom a] <->
    (forall e, holds w I (box_axiom a) e) /\ (forall e, holds w I (unbox_axiom a) e)).
  { change [box_axiom a; unbox_axiom a] with ([box_axiom a] ++ [unbox_axiom a]).
    rewrite hold_all_app, !hold_all_one. tauto. }
  rewrite E, (box_axiom_iff NE), unbox_axiom_iff. split.
  - intros ((A1 & A2 & A3 & A4 & A5 & A6 & A7 & A8) & (B1 & B2 & B3 & B4) & C). constructor; assumption.
  - intros []. split; [|split; [split; [|split; [|split]]|]]; [|assumption..].
    split; [|split; [|split; [|split; [|split; [|split; [|split]]]]]]; assumption.
Qed.
End Eval.
