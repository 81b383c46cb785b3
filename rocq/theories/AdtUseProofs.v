(** Consequences of the ADT axioms for Python expressions. *)
From Coq Require Import List String Ascii NArith ZArith Bool Lia.
From Verif Require Import AdtModel AdtSpec AdtProofs.
Import ListNotations.

Lemma create_adts_in p ds axs : create_adts p = Some (ds, axs) -> forall a, In a p ->
  a_cons a <> [] /\ incl (decls a) ds /\ incl (adt_axioms a) axs.
Proof.
  revert ds axs. induction p as [|b p IH]; intros ds axs; [simpl; tauto|]. cbn [create_adts].
  destruct (a_cons b) eqn:Eb; [discriminate|]. destruct (create_adts p) as [[ds' axs']|] eqn:E; [|discriminate].
  intros [= <- <-] a [->|Ha].
  - split; [congruence|]. split; apply incl_appl; apply incl_refl.
  - destruct (IH _ _ eq_refl a Ha) as (A & B & C). split; [auto|]. split; apply incl_appr; auto.
Qed.

Lemma create_adts_out p ds axs : create_adts p = Some (ds, axs) ->
  (forall d, In d ds -> exists a, In a p /\ In d (decls a)) /\
  (forall q, In q axs -> exists a, In a p /\ In q (adt_axioms a)).
Proof.
  revert ds axs. induction p as [|b p IH]; intros ds axs.
  - intros [= <- <-]. split; simpl; tauto.
  - cbn [create_adts]. destruct (a_cons b) eqn:Eb; [discriminate|].
    destruct (create_adts p) as [[ds' axs']|] eqn:E; [|discriminate]. intros [= <- <-].
    destruct (IH _ _ eq_refl) as [I1 I2]. split; intros x Hx; apply in_app_or in Hx; destruct Hx as [Hx|Hx].
    + exists b. split; [left; auto|auto].
    + destruct (I1 x Hx) as (a & ? & ?). exists a. split; [right; auto|auto].
    + exists b. split; [left; auto|auto].
    + destruct (I2 x Hx) as (a & ? & ?). exists a. split; [right; auto|auto].
Qed.

Lemma nodup_map_inj (A B : Type) (f : A -> B) l : NoDup (map f l) ->
  forall x y, In x l -> In y l -> f x = f y -> x = y.
Proof.
  induction l as [|z l IH]; simpl; [tauto|]. intros N x y Hx Hy E. inversion N; subst.
  destruct Hx as [->|Hx], Hy as [->|Hy]; auto.
  - exfalso. apply H1. rewrite E. apply in_map. auto.
  - exfalso. apply H1. rewrite <- E. apply in_map. auto.
Qed.

Section Use.
Variable w : world.
Variable p : list adt.
Variable I : interp.
Variables (ds : list decl) (axs : list fm).
Hypothesis W : wf_world w p.
Hypothesis CA : create_adts p = Some (ds, axs).
Hypothesis M : is_model w I ds axs.

Lemma the_sem a : In a p -> sem w I a.
Proof.
  intro Ha. destruct (create_adts_in _ _ _ CA a Ha) as (NE & _ & Inc).
  apply (axioms_sem w I a (fun _ => nul I) NE). intros q e Hq. apply (m_axioms _ _ _ _ M). auto.
Qed.

Lemma cons_inj a c a' c' : In a p -> In c (a_cons a) -> In a' p -> In c' (a_cons a') -> c_cls c = c_cls c' -> c = c'.
Proof.
  intros Ha Hc Ha' Hc' E. apply (nodup_map_inj _ _ _ _ (ww_conss _ _ W)); auto; apply in_flat_map; eauto.
Qed.

Section OneAdt.
Variable a : adt.
Hypothesis Ha : In a p.
Let Sm := the_sem a Ha.

Lemma decl_in d : In d (decls a) -> In d ds.
Proof. destruct (create_adts_in _ _ _ CA a Ha) as (_ & Inc & _). apply Inc. Qed.

Lemma okl_forall2 fs l : okl I a fs l <-> Forall2 (has I) (map (fun f => field_sort a (f_ty f)) fs) l.
Proof.
  unfold okl. revert l. induction fs; intro l; simpl; split; intro H; inversion H; subst; constructor; auto; apply IHfs; auto.
Qed.

Lemma cons_isA c l : In c (a_cons a) -> okl I a (c_fields c) l -> isA I a (Cn I a c l).
Proof.
  intros Hc O. apply okl_forall2 in O.
  exact (m_fun _ _ _ _ M {| d_sym := s_cons a c; d_args := map (fun f => field_sort a (f_ty f)) (c_fields c);
                   d_res := SAdt (a_cls a); d_unique := false |} l
    (decl_in _ (in_or_app _ _ _ (or_introl (in_or_app _ _ _ (or_introl (in_map _ _ _ Hc)))))) O).
Qed.

Lemma decons_has c f u : In c (a_cons a) -> In f (c_fields c) -> isA I a u ->
  has I (field_sort a (f_ty f)) (Dc I a c f u).
Proof.
  intros Hc Hf Hu.
  refine (m_fun _ _ _ _ M {| d_sym := s_decons a c f; d_args := [SAdt (a_cls a)];
                     d_res := field_sort a (f_ty f); d_unique := false |} [u] (decl_in _ _) _).
  - apply in_or_app. left. apply in_or_app. right. apply in_or_app. left. apply in_flat_map. exists c. split; [auto|].
    apply in_map_iff. exists f. auto.
  - constructor; [exact Hu|constructor].
Qed.

Lemma box_has u : isA I a u -> has I SRef (Bx I a u).
Proof.
  intro Hu. refine (m_fun _ _ _ _ M {| d_sym := s_box a; d_args := [SAdt (a_cls a)]; d_res := SRef; d_unique := false |}
    [u] (decl_in _ _) _).
  - apply in_or_app. right. left. reflexivity.
  - constructor; [exact Hu|constructor].
Qed.

Lemma unbox_has r : has I SRef r -> isA I a (Ub I a r).
Proof.
  intro Hu. refine (m_fun _ _ _ _ M {| d_sym := s_unbox a; d_args := [SRef]; d_res := SAdt (a_cls a); d_unique := false |}
    [r] (decl_in _ _) _).
  - apply in_or_app. right. right. left. reflexivity.
  - constructor; [exact Hu|constructor].
Qed.

Definition wrapv (t : fty) (v : uni I) : uni I := match t with FAdt => Ub I a v | _ => v end.

Lemma wrap_has t v : arg_ok w I a t v -> has I (field_sort a t) (wrapv t v).
Proof. destruct t; simpl; auto; [|tauto]. intros [H _]. apply unbox_has. exact H. Qed.

Lemma wrap_inj t v v' : arg_ok w I a t v -> arg_ok w I a t v' -> wrapv t v = wrapv t v' -> v = v'.
Proof.
  destruct t; simpl; auto. intros [H1 H2] [H3 H4] E.
  rewrite <- (s_ubx _ _ _ Sm v H1 H2), <- (s_ubx _ _ _ Sm v' H3 H4). rewrite E. reflexivity.
Qed.

Fixpoint zipw (fs : list fld) (vs : list (uni I)) : list (uni I) :=
  match fs, vs with
  | f :: fs', v :: vs' => wrapv (f_ty f) v :: zipw fs' vs'
  | _, _ => []
  end.

Lemma ev_wrap e t x : ev I e (wrap_arg a t x) = wrapv t (ev I e x).
Proof. destruct t; reflexivity. Qed.

Lemma ev_py_cons e c ts : ev I e (py_cons a c ts) = Bx I a (Cn I a c (zipw (c_fields c) (map (ev I e) ts))).
Proof.
  unfold py_cons, Bx, Cn. cbn [ev map]. do 3 f_equal.
  generalize (c_fields c). induction ts as [|t ts IH]; intros [|f fs]; simpl; auto. f_equal; [apply ev_wrap|apply IH].
Qed.

Lemma zipw_ok e c ts : args_ok w I e a c ts -> okl I a (c_fields c) (zipw (c_fields c) (map (ev I e) ts)).
Proof.
  unfold args_ok, okl. intro H. induction H; simpl; constructor; auto. apply wrap_has. assumption.
Qed.

Lemma zipw_inj e e' c ts ts' : args_ok w I e a c ts -> args_ok w I e' a c ts' ->
  zipw (c_fields c) (map (ev I e) ts) = zipw (c_fields c) (map (ev I e') ts') -> map (ev I e) ts = map (ev I e') ts'.
Proof.
  unfold args_ok. intro H. revert ts'. induction H; intros ts' H'; inversion H'; subst; simpl; auto.
  intro E. injection E as E1 E2. f_equal; [eapply wrap_inj; eauto|apply IHForall2; auto].
Qed.

Lemma built_is c l : In c (a_cons a) -> okl I a (c_fields c) l -> truth I (Is I a c (Cn I a c l)).
Proof.
  intros Hc O. apply (s_isb _ _ _ Sm); [auto|apply cons_isA; auto|]. apply (s_kst _ _ _ Sm); auto.
Qed.

Lemma built_type e c ts : In c (a_cons a) -> args_ok w I e a c ts ->
  has I SRef (ev I e (py_cons a c ts)) /\ tyof I (ev I e (py_cons a c ts)) = c_cls c.
Proof.
  intros Hc O. apply zipw_ok in O. rewrite ev_py_cons. split.
  - apply box_has. apply cons_isA; auto.
  - apply (s_bx3 _ _ _ Sm); [auto|apply cons_isA; auto|]. apply built_is; auto.
Qed.

Lemma built_field e c ts i f t : In c (a_cons a) -> args_ok w I e a c ts ->
  nth_error (c_fields c) i = Some f -> nth_error ts i = Some t ->
  ev I e (py_field a c f (py_cons a c ts)) = ev I e t.
Proof.
  intros Hc O Hf Ht. pose proof (zipw_ok _ _ _ O) as O'.
  assert (E : Dc I a c f (Ub I a (ev I e (py_cons a c ts))) = wrapv (f_ty f) (ev I e t)).
  { rewrite ev_py_cons. rewrite (s_bx2 _ _ _ Sm) by (apply cons_isA; auto).
    apply (s_proj _ _ _ Sm) with (i := i); auto.
    clear - Hf Ht. revert Hf Ht. revert ts. generalize (c_fields c). induction i; intros [|g fs] [|u ts]; simpl; try discriminate.
    - intros [= ->] [= ->]. reflexivity.
    - apply IHi. }
  assert (AO : arg_ok w I a (f_ty f) (ev I e t)).
  { clear - O Hf Ht. unfold args_ok in O. revert Hf Ht O. revert ts. generalize (c_fields c).
    induction i; intros [|g fs] [|u ts]; simpl; try discriminate.
    - intros [= ->] [= ->] H. inversion H; auto.
    - intros Hf Ht H. inversion H; subst. eapply IHi; eauto. }
  unfold py_field. destruct (f_ty f) eqn:Et; cbn [ev map]; unfold Dc in E; cbn [wrapv] in E; fold (Ub I a (ev I e (py_cons a c ts)));
    rewrite E; auto.
  destruct AO as [A1 A2]. apply (s_ubx _ _ _ Sm _ A1 A2).
Qed.

Lemma built_eq e e' c c' ts ts' : In c (a_cons a) -> In c' (a_cons a) ->
  args_ok w I e a c ts -> args_ok w I e' a c' ts' ->
  (ev I e (py_cons a c ts) = ev I e' (py_cons a c' ts') <-> c = c' /\ map (ev I e) ts = map (ev I e') ts').
Proof.
  intros Hc Hc' O O'. split.
  - intro E. assert (c = c').
    { apply (cons_inj a c a c'); auto. rewrite <- (proj2 (built_type e c ts Hc O)), <- (proj2 (built_type e' c' ts' Hc' O')), E. reflexivity. }
    subst c'. split; [auto|]. rewrite !ev_py_cons in E.
    pose proof (zipw_ok _ _ _ O) as Z. pose proof (zipw_ok _ _ _ O') as Z'.
    apply (s_bx4 _ _ _ Sm) in E; [|apply cons_isA; auto|apply cons_isA; auto].
    destruct (c_fields c) eqn:Ef.
    + unfold args_ok in O, O'. rewrite Ef in O, O'. inversion O; inversion O'; reflexivity.
    + rewrite <- Ef in *. apply (s_eq _ _ _ Sm) in E; auto; [|congruence]. eapply zipw_inj; eauto.
  - intros [-> E]. rewrite !ev_py_cons, E. reflexivity.
Qed.

Lemma value_cases v : is_adt w I a v -> exists c, In c (a_cons a) /\ tyof I v = c_cls c /\
  forall c', In c' (a_cons a) -> tyof I v = c_cls c' -> c' = c.
Proof.
  intros [H1 H2]. destruct (s_cls _ _ _ Sm v H1 H2) as (c & Hc & E). exists c. split; [auto|]. split; [auto|].
  intros c' Hc' E'. apply (cons_inj a c' a c); auto. congruence.
Qed.

Lemma value_fields e x c f : In c (a_cons a) -> In f (c_fields c) -> has I SRef (ev I e x) ->
  arg_ok w I a (f_ty f) (ev I e (py_field a c f x)).
Proof.
  intros Hc Hf H. pose proof (unbox_has _ H) as U. pose proof (decons_has c f _ Hc Hf U) as D.
  unfold py_field. destruct (f_ty f) eqn:Et; cbn [ev map arg_ok field_sort] in *; auto.
  - split; [apply box_has; exact D|]. apply (s_bx1 _ _ _ Sm). exact D.
  - split; [exact D|]. eapply (s_dty _ _ _ Sm); eauto.
Qed.

Lemma value_rebuild e x c : In c (a_cons a) -> c_fields c <> [] -> has I SRef (ev I e x) -> tyof I (ev I e x) = c_cls c ->
  ev I e x = ev I e (py_cons a c (map (fun f => py_field a c f x) (c_fields c))).
Proof.
  intros Hc Hf H T.
  assert (Hs : w_sub w (tyof I (ev I e x)) (a_cls a) = true) by (rewrite T; apply (ww_cons_sub _ _ W a c); auto).
  pose proof (s_ubx _ _ _ Sm _ H Hs) as B. pose proof (unbox_has _ H) as U.
  rewrite ev_py_cons. rewrite <- B at 1. f_equal.
  rewrite (s_eta _ _ _ Sm c (Ub I a (ev I e x)) Hc Hf U) at 1.
  2:{ apply (s_bx3 _ _ _ Sm); auto. congruence. }
  f_equal. assert (Inc : incl (c_fields c) (c_fields c)) by apply incl_refl. revert Inc. generalize (c_fields c) at 1 3 4 5.
  induction l as [|f l IH]; intro Inc; simpl; auto. f_equal.
  - unfold py_field. pose proof (decons_has c f _ Hc (Inc f (or_introl eq_refl)) U) as D.
    destruct (f_ty f) eqn:Et; cbn [ev map wrapv]; auto. symmetry. apply (s_bx2 _ _ _ Sm). exact D.
  - apply IH. intros g Hg. apply Inc. right. auto.
Qed.
End OneAdt.

Lemma inhabited_args a c : In a p -> In c (a_cons a) -> exists l, okl I a (c_fields c) l.
Proof.
  intros Ha Hc.
  assert (K : forall s, In s (map (fun f => field_sort a (f_ty f)) (c_fields c)) -> exists u, has I s u).
  { intros s Hs. apply (m_inhab _ _ _ _ M {| d_sym := s_cons a c; d_args := map (fun f => field_sort a (f_ty f)) (c_fields c);
                   d_res := SAdt (a_cls a); d_unique := false |} s); [|right; exact Hs].
    apply (decl_in a Ha). apply in_or_app. left. apply in_or_app. left. apply in_map_iff. exists c. auto. }
  unfold okl. induction (c_fields c) as [|f fs IH]; [exists []; constructor|].
  destruct (K (field_sort a (f_ty f))) as [u Hu]; [left; auto|]. destruct IH as [l Hl]; [intros; apply K; right; auto|].
  exists (u :: l). constructor; auto.
Qed.

Lemma inhabited_args_with a c i f v : In a p -> In c (a_cons a) -> nth_error (c_fields c) i = Some f ->
  has I (field_sort a (f_ty f)) v -> exists l, okl I a (c_fields c) l /\ nth_error l i = Some v.
Proof.
  intros Ha Hc Hf Hv. destruct (inhabited_args a c Ha Hc) as [l Hl]. revert i l Hl Hf.
  generalize (c_fields c) as fs. intros fs i. revert fs. induction i; intros [|g fs] l Hl Hf; try discriminate.
  - injection Hf as ->. inversion Hl; subst. exists (v :: l'). split; [constructor; auto|auto].
  - inversion Hl; subst. destruct (IHi fs l' H3 Hf) as (m & O & N). exists (y :: m). split; [constructor; auto|auto].
Qed.

Lemma needs_universal : class_fields_universal w p.
Proof.
  intros a c f k Ha Hc Hf Hk. pose proof (the_sem a Ha) as Sm.
  assert (K : forall r, has I SRef r -> w_sub w (tyof I r) k = true).
  { intros r Hr. destruct (In_nth_error _ _ Hf) as [i Hi].
    destruct (inhabited_args_with a c i f r Ha Hc Hi) as (l & O & N); [rewrite Hk; exact Hr|].
    rewrite <- (s_proj _ _ _ Sm c l i f r Hc O Hi N). apply (s_dty _ _ _ Sm) with (k := k); auto. apply cons_isA; auto. }
  split.
  - intros i Hi. destruct (m_inst _ _ _ _ M i Hi) as (u & Hu & <-). auto.
  - intros a' c' Ha' Hc'. destruct (inhabited_args a' c' Ha' Hc') as [l Hl].
    pose proof (cons_isA a' Ha' c' l Hc' Hl) as Hi.
    rewrite <- (proj1 (s_bx3 _ _ _ (the_sem a' Ha') c' _ Hc' Hi) (built_is a' Ha' c' l Hc' Hl)).
    apply K. apply box_has; auto.
Qed.
End Use.
