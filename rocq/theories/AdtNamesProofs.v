(** Names of the generated ADT functions. *)
From Coq Require Import List String Ascii NArith ZArith Bool Lia.
From Verif Require Import AdtModel AdtSpec AdtProofs AdtUseProofs.
Import ListNotations.

Lemma append_cancel s x y : (s ++ x)%string = (s ++ y)%string -> x = y.
Proof. induction s; simpl; auto. intro E. injection E as E. auto. Qed.

Lemma append_assoc s x y : ((s ++ x) ++ y)%string = (s ++ (x ++ y))%string.
Proof. induction s; simpl; congruence. Qed.

Lemma split_eq u v x y : no_underscore u = true -> no_underscore v = true ->
  (u ++ String "_" x)%string = (v ++ String "_" y)%string -> u = v /\ x = y.
Proof.
  revert v. induction u as [|a u IH]; intros [|b v] U V E; simpl in *.
  - injection E as ->. auto.
  - injection E as <- E. discriminate V.
  - injection E as -> E. discriminate U.
  - injection E as -> E. apply andb_true_iff in U, V. destruct (IH v (proj2 U) (proj2 V) E). subst. auto.
Qed.

Lemma no_under_split u x : no_underscore (u ++ String "_" x)%string = false.
Proof. induction u; simpl; auto. rewrite IHu. apply andb_false_r. Qed.

Definition key := (string * option string)%type.
Definition render (k : key) : string := match snd k with None => fst k | Some t => (fst k ++ String "_" t)%string end.

Lemma render_inj k k' : no_underscore (fst k) = true -> no_underscore (fst k') = true -> render k = render k' -> k = k'.
Proof.
  destruct k as [h [t|]], k' as [h' [t'|]]; unfold render; simpl; intros U V E.
  - destruct (split_eq _ _ _ _ U V E). congruence.
  - rewrite <- E, no_under_split in V. discriminate.
  - rewrite E, no_under_split in U. discriminate.
  - congruence.
Qed.

Definition keys (a : adt) : list key :=
  map (fun c => (c_name c, None)) (a_cons a) ++
  flat_map (fun c => map (fun f => (c_name c, Some (f_name f))) (c_fields c)) (a_cons a) ++
  ("cons"%string, Some "type"%string) ::
  map (fun c => (c_name c, Some "type"%string)) (a_cons a) ++
  map (fun c => ("is"%string, Some (c_name c))) (a_cons a).

Lemma names_keys a : map d_sym (domain_decls a) =
  map (fun k => (a_cls a, (a_name a ++ String "_" (render k))%string)) (keys a).
Proof.
  unfold domain_decls, keys, decl_constructors, decl_deconstructors, decl_constructor_types.
  repeat (rewrite !map_app || rewrite !map_map || cbn [map]).
  assert (E : forall s, (prefix a ++ s)%string = (a_name a ++ String "_" s)%string).
  { intro s. unfold prefix. rewrite append_assoc. reflexivity. }
  assert (K : map d_sym (flat_map (fun c => map (fun f => {| d_sym := s_decons a c f; d_args := [SAdt (a_cls a)];
                     d_res := field_sort a (f_ty f); d_unique := false |}) (c_fields c)) (a_cons a)) =
     map (fun k : key => (a_cls a, (a_name a ++ String "_" (render k))%string))
       (flat_map (fun c => map (fun f => (c_name c, Some (f_name f))) (c_fields c)) (a_cons a))).
  { induction (a_cons a) as [|c cs IH]; simpl; auto. rewrite !map_app, IH. f_equal. rewrite !map_map. apply map_ext.
    intro f. simpl. unfold s_decons, n_decons. rewrite E. reflexivity. }
  rewrite K. apply f_equal2.
  - apply map_ext. intro c. simpl. unfold s_cons, n_cons. rewrite E. reflexivity.
  - apply f_equal2; [reflexivity|]. apply f_equal2.
    + unfold s_cons_type, n_cons_type. rewrite E. reflexivity.
    + apply f_equal2; apply map_ext; intro c; cbn [d_sym]; unfold s_const, s_is, n_const, n_is; rewrite E; reflexivity.
Qed.

Lemma nodup_app (A : Type) (l m : list A) : NoDup l -> NoDup m -> (forall x, In x l -> ~ In x m) -> NoDup (l ++ m).
Proof.
  induction l as [|x l IH]; simpl; auto. intros N1 N2 D. inversion N1; subst. constructor.
  - rewrite in_app_iff. intros [H|H]; [auto|]. exact (D x (or_introl eq_refl) H).
  - apply IH; [auto|auto|]. intros y Hy. apply D. auto.
Qed.

Lemma nodup_map (A B : Type) (f : A -> B) l : NoDup l -> (forall x y, In x l -> In y l -> f x = f y -> x = y) -> NoDup (map f l).
Proof.
  induction l as [|x l IH]; simpl; [constructor|]. intros N I. inversion N; subst. constructor.
  - intro H. apply in_map_iff in H. destruct H as (y & E & Hy). apply H1. rewrite <- (I y x); auto.
  - apply IH; auto.
Qed.

Lemma keys_nodup a : simple_names a -> NoDup (keys a).
Proof.
  intros (UA & ND & S). unfold keys.
  assert (NDc : forall (B : Type) (g : string -> B), (forall x y, g x = g y -> x = y) -> NoDup (map (fun c => g (c_name c)) (a_cons a))).
  { intros B g Ig. rewrite <- map_map. apply nodup_map; [exact ND|]. intros; apply Ig; auto. }
  apply nodup_app; [apply (NDc key (fun n => (n, None))); congruence| |].
  2:{ intros x Hx Hy. apply in_map_iff in Hx. destruct Hx as (c & <- & Hc). rewrite in_app_iff in Hy. destruct Hy as [Hy|[Hy|Hy]].
      - apply in_flat_map in Hy. destruct Hy as (c' & _ & Hy). apply in_map_iff in Hy. destruct Hy as (f & E & _). discriminate.
      - discriminate.
      - apply in_app_or in Hy. destruct Hy as [Hy|Hy]; apply in_map_iff in Hy; destruct Hy as (c' & E & _); discriminate. }
  apply nodup_app.
  - clear NDc. revert ND S. induction (a_cons a) as [|c cs IH]; intros ND S; [constructor|]. simpl in *. inversion ND; subst.
    apply nodup_app.
    + destruct (S c (or_introl eq_refl)) as (_ & _ & _ & _ & NF & _).
      rewrite <- (map_map f_name (fun n => (c_name c, Some n))). apply nodup_map; [exact NF|]. congruence.
    + apply IH; auto.
    + intros x Hx Hy. apply in_map_iff in Hx. destruct Hx as (f & <- & _). apply in_flat_map in Hy. destruct Hy as (c' & Hc' & Hy).
      apply in_map_iff in Hy. destruct Hy as (g & E & _). apply H1. injection E as E _. rewrite <- E. apply in_map. auto.
  - constructor.
    + rewrite in_app_iff. intros [H|H]; apply in_map_iff in H; destruct H as (c & E & Hc).
      * destruct (S c Hc) as (_ & _ & _ & NC & _). congruence.
      * discriminate.
    + apply nodup_app; [apply (NDc key (fun n => (n, Some "type"%string))); congruence|apply (NDc key (fun n => ("is"%string, Some n))); congruence|].
      intros x Hx Hy. apply in_map_iff in Hx, Hy. destruct Hx as (c & <- & Hc), Hy as (c' & E & Hc').
      destruct (S c Hc) as (_ & _ & NI & _). congruence.
  - intros x Hx Hy. apply in_flat_map in Hx. destruct Hx as (c & Hc & Hx). apply in_map_iff in Hx. destruct Hx as (f & <- & Hf).
    destruct (S c Hc) as (_ & _ & NI & NC & _ & Fs). destruct (Fs f Hf) as (_ & NT). destruct Hy as [Hy|Hy]; [congruence|].
    apply in_app_or in Hy. destruct Hy as [Hy|Hy]; apply in_map_iff in Hy; destruct Hy as (c' & E & _); congruence.
Qed.

Lemma keys_heads a : simple_names a -> forall k, In k (keys a) -> no_underscore (fst k) = true.
Proof.
  intros (UA & ND & S) k Hk. unfold keys in Hk. rewrite !in_app_iff in Hk. destruct Hk as [Hk|[Hk|[Hk|Hk]]].
  - apply in_map_iff in Hk. destruct Hk as (c & <- & Hc). apply (S c Hc).
  - apply in_flat_map in Hk. destruct Hk as (c & Hc & Hk). apply in_map_iff in Hk. destruct Hk as (f & <- & _). apply (S c Hc).
  - subst. reflexivity.
  - rewrite in_app_iff in Hk. destruct Hk as [Hk|Hk]; apply in_map_iff in Hk; destruct Hk as (c & <- & Hc); [apply (S c Hc)|reflexivity].
Qed.

Lemma keys_not_box a : simple_names a -> forall k, In k (keys a) -> render k <> a_name a.
Proof.
  intros (UA & ND & S) k Hk E. destruct k as [h [t|]].
  - unfold render in E. simpl in E. rewrite <- E, no_under_split in UA. discriminate.
  - unfold render in E. simpl in E. subst h. unfold keys in Hk. rewrite !in_app_iff in Hk. destruct Hk as [Hk|[Hk|[Hk|Hk]]].
    + apply in_map_iff in Hk. destruct Hk as (c & E & Hc). injection E as E. destruct (S c Hc) as (_ & N & _). auto.
    + apply in_flat_map in Hk. destruct Hk as (c & Hc & Hk). apply in_map_iff in Hk. destruct Hk as (f & E & _). discriminate.
    + discriminate.
    + rewrite in_app_iff in Hk. destruct Hk as [Hk|Hk]; apply in_map_iff in Hk; destruct Hk as (c & E & Hc); discriminate.
Qed.

Lemma decls_nodup a : simple_names a -> NoDup (map d_sym (decls a)).
Proof.
  intro SN. unfold decls. rewrite map_app. apply nodup_app.
  - rewrite names_keys. apply nodup_map; [apply keys_nodup; auto|]. intros k k' Hk Hk' E. injection E as E.
    apply append_cancel in E. injection E as E. apply render_inj; auto; eapply keys_heads; eauto.
  - simpl. constructor; [|constructor; [simpl; tauto|constructor]]. intros [E|[]]. injection E as E. discriminate.
  - rewrite names_keys. intros x Hx Hy. apply in_map_iff in Hx. destruct Hx as (k & <- & Hk).
    pose proof (keys_not_box a SN k Hk) as NB. destruct SN as (UA & _).
    destruct Hy as [E|[E|[]]]; injection E as E.
    + change (n_box a) with ("box" ++ String "_" (a_name a))%string in E. apply split_eq in E; [|reflexivity|exact UA].
      destruct E as [_ E]. apply NB. auto.
    + change (n_unbox a) with ("unbox" ++ String "_" (a_name a))%string in E. apply split_eq in E; [|reflexivity|exact UA].
      destruct E as [_ E]. apply NB. auto.
Qed.

Lemma decls_cls a d : In d (decls a) -> fst (d_sym d) = a_cls a.
Proof.
  intro Hd. unfold decls, domain_decls in Hd. rewrite !in_app_iff in Hd. destruct Hd as [[Hd|[Hd|Hd]]|Hd].
  - apply in_map_iff in Hd. destruct Hd as (c & <- & Hc). reflexivity.
  - apply in_flat_map in Hd. destruct Hd as (c & Hc & Hd). apply in_map_iff in Hd. destruct Hd as (f & <- & Hf). reflexivity.
  - destruct Hd as [<-|Hd]; [reflexivity|]. apply in_app_or in Hd; destruct Hd as [Hd|Hd]; apply in_map_iff in Hd; destruct Hd as (c & <- & Hc); reflexivity.
  - destruct Hd as [<-|[<-|[]]]; reflexivity.
Qed.

Lemma program_names p ds axs : create_adts p = Some (ds, axs) -> NoDup (map a_cls p) ->
  (forall a, In a p -> simple_names a) -> names_distinct ds.
Proof.
  unfold names_distinct. revert ds axs. induction p as [|b p IH]; intros ds axs.
  - intros [= <- <-] _ _. constructor.
  - intro CA. pose proof CA as CA0. cbn [create_adts] in CA. destruct (a_cons b); [discriminate|].
    destruct (create_adts p) as [[ds' axs']|] eqn:E; [|discriminate]. injection CA as <- <-.
    intros N S. inversion N; subst. rewrite map_app. apply nodup_app.
    + apply decls_nodup. apply S. left. auto.
    + eapply IH; eauto. intros; apply S; right; auto.
    + intros x Hx Hy. apply in_map_iff in Hx, Hy. destruct Hx as (d & <- & Hd), Hy as (d' & Es & Hd').
      destruct (create_adts_out _ _ _ E) as [OD _]. destruct (OD d' Hd') as (a & Ha & Hda).
      apply H1. rewrite <- (decls_cls b d Hd), <- Es, (decls_cls a d' Hda). apply in_map. auto.
Qed.

Lemma shapes s : st_bases s <> 0 -> (check_well_formed s = true <-> adt_shape s).
Proof.
  intro NZ. unfold check_well_formed. split.
  - destruct (Nat.ltb 2 (st_bases s)) eqn:E; [discriminate|]. apply PeanoNat.Nat.ltb_ge in E.
    destruct (st_body_pass s) eqn:B; [|discriminate]. cbn [negb].
    destruct (Nat.eqb (st_bases s) 2) eqn:E2.
    + apply PeanoNat.Nat.eqb_eq in E2. destruct (st_named_tuple s) as [n|] eqn:T; [|discriminate].
      intro H. apply andb_true_iff in H. destruct H as [H1 H2]. apply String.eqb_eq in H1. apply negb_true_iff in H2.
      apply shape_cons; auto. congruence.
    + apply PeanoNat.Nat.eqb_neq in E2. intro H. apply shape_def; auto. lia.
  - intros [E1 B S|E1 B S T]; rewrite E1, B; simpl; [exact S|]. rewrite T, S, String.eqb_refl. reflexivity.
Qed.
