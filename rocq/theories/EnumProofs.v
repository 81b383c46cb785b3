(** Proofs about IntEnum classes. *)
From Coq Require Import Bool Arith ZArith List Lia.
From Verif Require Import NamesModel NamesProofs EnumModel EnumSpec.
Import ListNotations.
Local Open Scope Z_scope.

Definition named (es : list enum) : program := combine (map en_name es) es.

Lemma requests_kept ns : forall tbl, NoDup ns -> (forall n, In n ns -> ~ In n tbl) ->
  exists t', requests pystring pystring_eqb py_suffix (map (fun n => (Owner, n)) ns) tbl = Some (ns, t').
Proof.
  induction ns as [|n ns IH]; intros tbl ND F; cbn [map requests]; [eauto|].
  apply NoDup_cons_iff in ND. destruct ND as [N1 N2].
  rewrite (get_fresh_keeps pystring pystring_eqb py_suffix pystring_eqb_spec) by (apply F; left; reflexivity).
  destruct (IH (n :: tbl) N2) as [t' ->].
  - intros m Hm [<-|H]; [contradiction|]. apply (F m); [right; exact Hm|exact H].
  - eauto.
Qed.

Lemma sil_names_kept tbl es : NoDup (map en_name es) -> (forall e, In e es -> ~ In (en_name e) tbl) ->
  sil_names tbl es = Some (map en_name es).
Proof.
  intros ND F. unfold sil_names. rewrite <- (map_map en_name (fun n => (Owner, n))).
  destruct (requests_kept (map en_name es) tbl ND) as [t' ->]; [|reflexivity].
  intros n Hn. apply in_map_iff in Hn. destruct Hn as (e & <- & He). auto.
Qed.

Lemma combine_map es : forall e s, In (e, s) (combine es (map en_name es)) <-> In e es /\ s = en_name e.
Proof.
  induction es as [|e es IH]; intros e' s; cbn; [tauto|]. rewrite IH. split.
  - intros [H|[H ->]]; [injection H as <- <-; auto|auto].
  - intros [[->|H] ->]; auto.
Qed.

Definition own_decls (es : list enum) : list decl :=
  flat_map (fun e => box_functions e (en_name e)) es ++ flat_map (fun e => static_functions e (en_name e)) es.
Lemma flat_combine (f : enum -> pystring -> list decl) es :
  flat_map (fun x => f (fst x) (snd x)) (combine es (map en_name es)) = flat_map (fun e => f e (en_name e)) es.
Proof. induction es as [|e es IH]; cbn; [reflexivity|]. rewrite IH. reflexivity. Qed.

Lemma generate_kept tbl es : NoDup (map en_name es) -> (forall e, In e es -> ~ In (en_name e) tbl) ->
  generate tbl es = Some (own_decls es).
Proof.
  intros ND F. unfold generate. rewrite (sil_names_kept tbl es ND F). cbn [option_map].
  unfold generate_with, own_decls. rewrite (flat_combine box_functions), (flat_combine static_functions). reflexivity.
Qed.

Lemma in_decls es d : In d (own_decls es) <->
  exists e, In e es /\ (d = DBox (en_name e) (values e) (en_name e) \/ d = DInt (en_name e) (values e) \/
                        exists m v, In (m, v) (en_members e) /\ d = DStatic (en_name e) m (en_name e) v).
Proof.
  unfold own_decls. rewrite in_app_iff, !in_flat_map. split.
  - intros [(e & He & Hd)|(e & He & Hd)]; exists e; split; auto.
    + destruct Hd as [<-|[<-|[]]]; auto.
    + unfold static_functions in Hd. apply in_map_iff in Hd. destruct Hd as ([m v] & <- & H). right. right. exists m, v. auto.
  - intros (e & He & [-> | [-> | (m & v & H & ->)]]).
    + left. exists e. cbn. auto.
    + left. exists e. cbn. auto.
    + right. exists e. split; auto. unfold static_functions. apply in_map_iff. exists (m, v). auto.
Qed.

Lemma eqb_refl s : pystring_eqb s s = true.
Proof. apply pystring_eqb_spec. reflexivity. Qed.

Lemma class_named es e : NoDup (map en_name es) -> In e es -> class_of (named es) (en_name e) = Some e.
Proof.
  unfold named. induction es as [|e' es IH]; intros ND H; [destruct H|].
  cbn in ND. apply NoDup_cons_iff in ND. destruct ND as [N1 N2]. cbn [map combine class_of].
  destruct H as [->|H]; [rewrite eqb_refl; reflexivity|].
  destruct (pystring_eqb (en_name e') (en_name e)) eqn:E; [|apply IH; auto].
  apply pystring_eqb_spec in E. exfalso. apply N1. rewrite E. apply in_map. exact H.
Qed.

Lemma class_in es c e : class_of (named es) c = Some e -> In e es /\ c = en_name e.
Proof.
  unfold named. induction es as [|e' es IH]; cbn; [discriminate|].
  destruct (pystring_eqb (en_name e') c) eqn:E; intros H.
  - injection H as <-. apply pystring_eqb_spec in E. auto.
  - apply IH in H. tauto.
Qed.

Lemma lookup_in ms m v : NoDup (map fst ms) -> In (m, v) ms -> lookup ms m = v.
Proof.
  induction ms as [|[n z] ms IH]; cbn; intros ND H; [destruct H|].
  apply NoDup_cons_iff in ND. destruct ND as [N1 N2]. destruct H as [H|H].
  - injection H as -> ->. rewrite eqb_refl. reflexivity.
  - destruct (pystring_eqb n m) eqn:E; [|auto]. apply pystring_eqb_spec in E. subst n.
    exfalso. apply N1. apply in_map_iff. exists (m, v). auto.
Qed.

Lemma member_in p c z e : class_of p c = Some e -> (member p c z = true <-> In z (map snd (en_members e))).
Proof.
  intros H. unfold member. rewrite H, existsb_exists. split.
  - intros (y & I & E). apply Z.eqb_eq in E. subst y. exact I.
  - intros I. exists z. split; auto. apply Z.eqb_refl.
Qed.

Lemma background_python p : background (python p).
Proof.
  assert (AI : forall v, int_like (py_typeof p v) = true -> exists z, as_int v = Some z).
  { intros [z|b|c z|n]; cbn; eauto. discriminate. }
  unfold background, python. cbn. repeat split; auto.
  - intros [z|b|c z|n]; cbn; try discriminate; [reflexivity|]. destruct (member p c z); discriminate.
  - intros [z|b|c z|n]; cbn; try discriminate; [destruct b; reflexivity|]. destruct (member p c z); discriminate.
  - intros r i Hr Hi E. destruct (AI r Hr) as [x Ex], (AI i Hi) as [y Ey].
    unfold py_eq, py_int in *. rewrite Ex, Ey in *. auto.
  - unfold py_eq, py_int. destruct (AI l H) as [x Ex], (AI r H0) as [y Ey]. rewrite Ex, Ey. auto.
  - unfold py_eq, py_int. destruct (AI l H) as [x Ex], (AI r H0) as [y Ey]. rewrite Ex, Ey. auto.
  - intros r. unfold py_eq. destruct (as_int r); reflexivity.
  - intros l r. unfold py_eq. destruct (as_int l), (as_int r); auto.
  - intros a b c. unfold py_eq. destruct (as_int a), (as_int b), (as_int c); try tauto; congruence.
Qed.

Theorem c55_consistent_partial : forall tbl es,
  NoDup (map en_name es) -> (forall e, In e es -> ~ In (en_name e) tbl) -> Forall wf es ->
  exists ds, generate tbl es = Some ds /\ accepted ds /\
    background (python (combine (map en_name es) es)) /\ Forall (holds (python (combine (map en_name es) es))) ds.
Proof.
  intros tbl es ND F W. exists (own_decls es). split; [apply generate_kept; auto|]. split.
  { intros c m f v H. apply in_decls in H. destruct H as (e & He & [H|[H|(m' & v' & Hm & H)]]); try discriminate.
    injection H as -> -> -> ->. exists (values e), (en_name e). split.
    - apply in_decls. exists e. auto.
    - unfold values. apply in_map_iff. exists (m', v'). auto. }
  split; [apply background_python|]. apply Forall_forall. intros d H. apply in_decls in H.
  destruct H as (e & He & H). assert (C := class_named es e ND He). fold (named es) in *.
  destruct H as [-> | [-> | (m & v & Hm & ->)]]; cbn.
  - intros v Hv. unfold values in Hv. assert (M := proj2 (member_in _ _ v _ C) Hv). rewrite M. auto.
  - intros r Hr. assert (IN : In (py_int r) (values e)).
    { destruct r as [z|b|c z|n]; cbn in Hr; try discriminate. destruct (member _ c z) eqn:M; [|discriminate].
      injection Hr as ->. apply (member_in _ _ _ _ C) in M. exact M. }
    split; [exact IN|]. intros i E Hi.
    destruct r as [z|b|c z|n]; cbn in Hr; try discriminate. destruct i as [z'|b|c' z'|n']; cbn in Hi; try discriminate.
    unfold py_eq in E. cbn in E. cbn. congruence.
  - unfold py_static. rewrite C. assert (L : lookup (en_members e) m = v).
    { apply lookup_in; auto. rewrite Forall_forall in W. apply (W e He). }
    rewrite L. split; [|reflexivity]. cbn.
    assert (M : member (named es) (en_name e) v = true).
    { apply (member_in _ _ _ _ C). apply in_map_iff. exists (m, v). auto. }
    rewrite M. reflexivity.
Qed.

Theorem c55_cons_checked : forall tbl es ds e v,
  NoDup (map en_name es) -> (forall e, In e es -> ~ In (en_name e) tbl) -> generate tbl es = Some ds -> In e es ->
  (cons_ok ds (en_name e) v <-> py_cons e (en_name e) v <> None) /\
  (forall r, py_cons e (en_name e) v = Some r -> cons_value (python (combine (map en_name es) es)) (en_name e) v = r).
Proof.
  intros tbl es ds e v ND F G He. rewrite (generate_kept tbl es ND F) in G. injection G as <-. split.
  - unfold cons_ok, py_cons. split.
    + intros (vals & c & H & Hv). apply in_decls in H. destruct H as (e' & He' & [H|[H|(m & v' & Hm & H)]]); try discriminate.
      injection H as En -> ->. assert (e' = e) as ->.
      { assert (C1 := class_named es e ND He). assert (C2 := class_named es e' ND He'). rewrite <- En in C2. congruence. }
      unfold values in Hv. destruct (existsb _ _) eqn:E; [discriminate|].
      exfalso. apply Bool.not_true_iff_false in E. apply E. apply existsb_exists. exists v. split; auto using Z.eqb_refl.
    + intros H. destruct (existsb _ _) eqn:E; [|congruence]. apply existsb_exists in E. destruct E as (y & Hy & E).
      apply Z.eqb_eq in E. subst y. exists (values e), (en_name e). split; [apply in_decls; exists e; auto|exact Hy].
  - unfold py_cons. intros r H. destruct (existsb _ _); [|discriminate]. injection H as <-. reflexivity.
Qed.

Theorem c55_members : forall tbl es ds I e m v,
  NoDup (map en_name es) -> (forall e, In e es -> ~ In (en_name e) tbl) -> generate tbl es = Some ds ->
  background I -> Forall (holds I) ds -> In e es -> In (m, v) (en_members e) ->
  static I (en_name e) m = cons_value I (en_name e) v /\
  typeof I (static I (en_name e) m) = TEnum (en_name e) /\
  to_int I (SEnum (en_name e)) (static I (en_name e) m) = v /\ to_int I SInt (static I (en_name e) m) = v /\
  (forall m' v', In (m', v') (en_members e) -> (static I (en_name e) m = static I (en_name e) m' <-> v = v')) /\
  (forall e' m' v', In e' es -> en_name e' <> en_name e -> In (m', v') (en_members e') ->
     static I (en_name e) m <> static I (en_name e') m') /\
  (forall r, typeof I r = TEnum (en_name e) -> exists m' v', In (m', v') (en_members e) /\ to_int I (SEnum (en_name e)) r = v').
Proof.
  intros tbl es ds I e m v ND F G B H He Hm. rewrite (generate_kept tbl es ND F) in G. injection G as <-.
  rewrite Forall_forall in H.
  assert (ST : forall e m v, In e es -> In (m, v) (en_members e) ->
            typeof I (static I (en_name e) m) = TEnum (en_name e) /\ static I (en_name e) m = enum_box I (en_name e) v).
  { intros e0 m0 v0 He0 Hm0. apply (H (DStatic (en_name e0) m0 (en_name e0) v0)). apply in_decls. exists e0. eauto 8. }
  assert (BX : forall e m v, In e es -> In (m, v) (en_members e) ->
            enum_int I (en_name e) (enum_box I (en_name e) v) = v /\ int_unbox I (enum_box I (en_name e) v) = v).
  { intros e0 m0 v0 He0 Hm0. assert (X : holds I (DBox (en_name e0) (values e0) (en_name e0))).
    { apply H. apply in_decls. exists e0. auto. }
    apply (X v0). unfold values. apply in_map_iff. exists (m0, v0). auto. }
  destruct (ST e m v He Hm) as [T E]. destruct (BX e m v He Hm) as [X1 X2].
  split; [exact E|]. split; [exact T|]. split; [cbn; rewrite E; exact X1|]. split; [cbn; rewrite E; exact X2|]. split.
  { intros m' v' Hm'. destruct (ST e m' v' He Hm') as [_ E']. destruct (BX e m' v' He Hm') as [X1' _].
    rewrite E, E'. split; [|intros ->; reflexivity]. intros Q. rewrite Q in X1. congruence. }
  split.
  { intros e' m' v' He' Ne Hm' Q. destruct (ST e' m' v' He' Hm') as [T' _]. rewrite Q in T. congruence. }
  intros r Hr. assert (X : holds I (DInt (en_name e) (values e))).
  { apply H. apply in_decls. exists e. auto. }
  destruct (X r Hr) as [Hin _]. unfold values in Hin. apply in_map_iff in Hin. destruct Hin as ([m' v'] & Eq & Hin).
  exists m', v'. split; [exact Hin|]. cbn. cbn in Eq. auto.
Qed.

Theorem c55_compare : forall p op lt l rt r,
  typed p lt l -> typed p rt r -> (compare (python p) op lt l rt r <-> py_compare op l r).
Proof.
  intros p op lt l rt r Tl Tr.
  assert (AI : forall t v, typed p t v -> exists z, as_int v = Some z).
  { intros [|c] [z|b|c' z|n]; cbn; eauto; discriminate. }
  destruct (AI _ _ Tl) as [x Ex], (AI _ _ Tr) as [y Ey].
  assert (O : forall t v z, as_int v = Some z -> as_int (operand (python p) t v) = Some z).
  { intros [|c] v z Hz; cbn; [exact Hz|]. unfold py_int. rewrite Hz. reflexivity. }
  assert (Ol := O lt _ _ Ex). assert (Or := O rt _ _ Ey).
  destruct op; cbn [compare py_compare]; try tauto;
    change (int_eq (python p)) with py_eq; change (int_unbox (python p)) with py_int; unfold py_eq, py_int;
    change (R (python p)) with pyval in *; rewrite Ol, Or, Ex, Ey; tauto.
Qed.
