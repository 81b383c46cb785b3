(** A model of the ADT axioms: terms, plus one cyclic value per ADT and a
    second copy of each constant constructor. *)
From Coq Require Import List String Ascii NArith ZArith Bool Lia.
From Verif Require Import AdtModel AdtSpec AdtProofs AdtUseProofs.
Import ListNotations.

Inductive val :=
| XI (z : Z)
| XB (b : bool)
| XO (a : cls)
| XC (a k : cls) (args : list val)
| XN (a k : cls)
| XR (k : cls)
| XX (v : val).

Inductive kind := KC (c : cons) | KD (c : cons) (i : nat) | KT | KK (c : cons) | KI (c : cons) | KB | KU.

Section Build.
Variable w : world.
Variable p : list adt.
Variables (ds : list decl) (axs : list fm).
Hypothesis W : wf_world w p.
Hypothesis CA : create_adts p = Some (ds, axs).
Hypothesis ND : names_distinct ds.
Hypothesis CU : class_fields_universal w p.

Definition no_cons : cons := {| c_cls := 0%N; c_name := ""%string; c_fields := [] |}.
Definition first (a : adt) : cons := hd no_cons (a_cons a).

Definition dflt (a : adt) (t : fty) : val :=
  match t with
  | FInt => XI 0
  | FBool => XB false
  | FAdt => XO (a_cls a)
  | FCls _ => XR (w_none w)
  end.

Definition dargs (a : adt) (c : cons) : list val := map (fun f => dflt a (f_ty f)) (c_fields c).

Definition is_dflt (a : adt) (t : fty) (v : val) : bool :=
  match t, v with
  | FInt, XI 0 => true
  | FBool, XB false => true
  | FAdt, XO k => N.eqb k (a_cls a)
  | FCls _, XR k => N.eqb k (w_none w)
  | _, _ => false
  end.

Lemma is_dflt_iff a t v : is_dflt a t v = true <-> v = dflt a t.
Proof.
  destruct t, v; simpl; try (split; congruence).
  - destruct z; split; congruence.
  - destruct b; split; congruence.
  - rewrite N.eqb_eq. split; congruence.
  - rewrite N.eqb_eq. split; congruence.
Qed.

Fixpoint all_dflt (a : adt) (fs : list fld) (l : list val) : bool :=
  match fs, l with
  | [], [] => true
  | f :: fs', v :: l' => is_dflt a (f_ty f) v && all_dflt a fs' l'
  | _, _ => false
  end.

Lemma all_dflt_iff a fs l : all_dflt a fs l = true <-> l = map (fun f => dflt a (f_ty f)) fs.
Proof.
  revert l. induction fs as [|f fs IH]; intros [|v l]; simpl; try (split; congruence).
  rewrite andb_true_iff, is_dflt_iff, IH. split; [intros [-> ->]; auto|]. intros [= -> ->]. auto.
Qed.

Definition is_first (a : adt) (c : cons) : bool := N.eqb (c_cls c) (c_cls (first a)).

Definition folded (a : adt) (c : cons) (l : list val) : bool := is_first a c && all_dflt a (c_fields c) l.

Definition mk (a : adt) (c : cons) (l : list val) : val :=
  if folded a c l then XO (a_cls a) else XC (a_cls a) (c_cls c) l.

Inductive hv : srt -> val -> Prop :=
| hv_int z : hv SInt (XI z)
| hv_bool b : hv SBool (XB b)
| hv_inst k : w_inst w k -> hv SRef (XR k)
| hv_box a v : In a p -> hv (SAdt (a_cls a)) v -> hv SRef (XX v)
| hv_o a : In a p -> hv (SAdt (a_cls a)) (XO (a_cls a))
| hv_c a c l : In a p -> In c (a_cons a) ->
    Forall2 (fun f v => hv (field_sort a (f_ty f)) v) (c_fields c) l -> folded a c l = false ->
    hv (SAdt (a_cls a)) (XC (a_cls a) (c_cls c) l)
| hv_n a c : In a p -> In c (a_cons a) -> c_fields c = [] ->
    hv (SAdt (a_cls a)) (XN (a_cls a) (c_cls c)).

Definition find_adt (k : cls) : option adt := find (fun a => N.eqb (a_cls a) k) p.

Definition kcls (v : val) : cls :=
  match v with
  | XO k => match find_adt k with Some a => c_cls (first a) | None => 0%N end
  | XC _ k _ => k
  | XN _ k => k
  | _ => 0%N
  end.

Definition argsof (a : adt) (c : cons) (v : val) : list val :=
  match v with
  | XC _ k l => if N.eqb k (c_cls c) then l else dargs a c
  | _ => dargs a c
  end.

Fixpoint mapi {A B} (f : nat -> A -> B) (i : nat) (l : list A) : list B :=
  match l with [] => [] | x :: r => f i x :: mapi f (S i) r end.

Definition table (a : adt) : list (string * kind) :=
  (map (fun c => (n_cons a c, KC c)) (a_cons a) ++
   flat_map (fun c => mapi (fun i f => (n_decons a c f, KD c i)) 0 (c_fields c)) (a_cons a) ++
   (n_cons_type a, KT) ::
   map (fun c => (n_const a c, KK c)) (a_cons a) ++
   map (fun c => (n_is a c, KI c)) (a_cons a)) ++
  [(n_box a, KB); (n_unbox a, KU)].

Fixpoint assoc (s : string) (l : list (string * kind)) : option kind :=
  match l with
  | [] => None
  | (t, k) :: r => if String.eqb s t then Some k else assoc s r
  end.

Definition apk (a : adt) (k : kind) (l : list val) : val :=
  match k, l with
  | KC c, _ => mk a c l
  | KD c i, [v] => nth i (argsof a c v) (XI 0)
  | KT, [v] => XI (Z.of_N (kcls v))
  | KK c, [] => XI (Z.of_N (c_cls c))
  | KI c, [v] => XB (N.eqb (kcls v) (c_cls c))
  | KB, [v] => XX v
  | KU, [XX (XO k)] => if N.eqb k (a_cls a) then XO k else XO (a_cls a)
  | KU, [XX (XC k c l')] => if N.eqb k (a_cls a) then XC k c l' else XO (a_cls a)
  | KU, [XX (XN k c)] => if N.eqb k (a_cls a) then XN k c else XO (a_cls a)
  | KU, _ => XO (a_cls a)
  | _, _ => XI 0
  end.

Definition apply (s : sym) (l : list val) : val :=
  match find_adt (fst s) with
  | Some a => match assoc (snd s) (table a) with Some k => apk a k l | None => XI 0 end
  | None => XI 0
  end.

Definition tyv (v : val) : cls :=
  match v with
  | XR k => k
  | XX u => kcls u
  | _ => w_none w
  end.

Definition tI : interp := {|
  uni := val; has := hv; ap := apply; tyof := tyv; truth := fun v => v = XB true; nul := XR (w_none w) |}.

Lemma adt_inj a b : In a p -> In b p -> a_cls a = a_cls b -> a = b.
Proof. intros. apply (nodup_map_inj _ _ a_cls p (ww_adts _ _ W)); auto. Qed.

Lemma find_adt_ok a : In a p -> find_adt (a_cls a) = Some a.
Proof.
  intro Ha. unfold find_adt. destruct (find (fun b => N.eqb (a_cls b) (a_cls a)) p) as [b|] eqn:E.
  - apply find_some in E. destruct E as [Hb E]. apply N.eqb_eq in E. f_equal. apply adt_inj; auto.
  - exfalso. apply (find_none _ _ E) in Ha. rewrite N.eqb_refl in Ha. discriminate.
Qed.

Lemma table_names a : map d_sym (decls a) = map (fun s => (a_cls a, s)) (map fst (table a)).
Proof.
  unfold decls, domain_decls, table, decl_constructors, decl_deconstructors, decl_constructor_types.
  repeat (rewrite !map_app || rewrite !map_map || cbn [map]).
  assert (K : map d_sym (flat_map (fun c => map (fun f => {| d_sym := s_decons a c f; d_args := [SAdt (a_cls a)];
                     d_res := field_sort a (f_ty f); d_unique := false |}) (c_fields c)) (a_cons a)) =
     map (fun x => (a_cls a, fst x)) (flat_map (fun c => mapi (fun i f => (n_decons a c f, KD c i)) 0 (c_fields c)) (a_cons a))).
  { induction (a_cons a) as [|c cs IH]; simpl; auto. rewrite !map_app, IH. f_equal.
    generalize 0. induction (c_fields c) as [|f fs IHf]; intro i; simpl; auto. f_equal. apply IHf. }
  rewrite K. reflexivity.
Qed.

Lemma nodup_table a : In a p -> NoDup (map fst (table a)).
Proof.
  intro Ha. assert (N1 : NoDup (map d_sym (decls a))).
  { unfold names_distinct in ND. clear CU. revert ds axs CA ND. clear W. revert Ha. induction p as [|b q IH]; [simpl; tauto|].
    intros Ha ds axs. cbn [create_adts]. destruct (a_cons b); [discriminate|]. destruct (create_adts q) as [[ds' axs']|]; [|discriminate].
    intros [= <- <-] N. rewrite map_app in N. destruct Ha as [->|Ha].
    - clear - N. induction (map d_sym (decls a)) as [|x l IHl]; [constructor|]. inversion N; subst. constructor; [|auto].
      intro H. apply H1. apply in_or_app. auto.
    - apply (IH Ha ds' axs' eq_refl). clear - N. induction (map d_sym (decls b)) as [|x l IHl]; [exact N|]. inversion N; auto. }
  rewrite table_names in N1. eapply NoDup_map_inv. exact N1.
Qed.

Lemma assoc_in l s k : NoDup (map fst l) -> In (s, k) l -> assoc s l = Some k.
Proof.
  induction l as [|[t k'] l IH]; simpl; [tauto|]. intros N [[= -> ->]|H].
  - rewrite String.eqb_refl. reflexivity.
  - inversion N; subst. destruct (String.eqb s t) eqn:E; [|auto]. apply String.eqb_eq in E. subst.
    exfalso. apply H2. apply (in_map fst _ _ H).
Qed.

Lemma apply_tab a s k l : In a p -> In (s, k) (table a) -> apply (a_cls a, s) l = apk a k l.
Proof.
  intros Ha Hk. unfold apply. cbn [fst snd]. rewrite (find_adt_ok a Ha).
  rewrite (assoc_in _ _ _ (nodup_table a Ha) Hk). reflexivity.
Qed.

Lemma in_mapi {A B} (f : nat -> A -> B) l i j x : nth_error l j = Some x -> In (f (i + j) x) (mapi f i l).
Proof.
  revert i j. induction l as [|y l IH]; intros i [|j]; simpl; try discriminate.
  - intros [= ->]. left. f_equal. lia.
  - intro H. right. replace (i + S j) with (S i + j) by lia. auto.
Qed.

Section One.
Variable a : adt.
Hypothesis Ha : In a p.

Ltac tab := rewrite (apply_tab a _ _ _ Ha); [reflexivity|]; unfold table.

Lemma ap_cons c l : In c (a_cons a) -> Cn tI a c l = mk a c l.
Proof.
  intro Hc. unfold Cn. change (ap tI (s_cons a c) l) with (apply (a_cls a, n_cons a c) l).
  rewrite (apply_tab a _ (KC c) _ Ha); [reflexivity|]. apply in_or_app. left. apply in_or_app. left. apply in_map_iff. eauto.
Qed.

Lemma ap_decons c f i u : In c (a_cons a) -> nth_error (c_fields c) i = Some f ->
  Dc tI a c f u = nth i (argsof a c u) (XI 0).
Proof.
  intros Hc Hf. unfold Dc. change (apply (a_cls a, n_decons a c f) [u] = nth i (argsof a c u) (XI 0)).
  rewrite (apply_tab a _ (KD c i) _ Ha); [reflexivity|]. apply in_or_app. left. apply in_or_app. right. apply in_or_app. left.
  apply in_flat_map. exists c. split; [auto|]. exact (in_mapi (fun i f => (n_decons a c f, KD c i)) _ 0 _ _ Hf).
Qed.

Lemma ap_ct u : Ct tI a u = XI (Z.of_N (kcls u)).
Proof.
  unfold Ct. change (apply (a_cls a, n_cons_type a) [u] = XI (Z.of_N (kcls u))).
  rewrite (apply_tab a _ KT _ Ha); [reflexivity|]. apply in_or_app. left. apply in_or_app. right. apply in_or_app. right. left. reflexivity.
Qed.

Lemma ap_kc c : In c (a_cons a) -> Kc tI a c = XI (Z.of_N (c_cls c)).
Proof.
  intro Hc. unfold Kc. change (apply (a_cls a, n_const a c) [] = XI (Z.of_N (c_cls c))).
  rewrite (apply_tab a _ (KK c) _ Ha); [reflexivity|]. apply in_or_app. left. apply in_or_app. right. apply in_or_app. right. right.
  apply in_or_app. left. apply in_map_iff. eauto.
Qed.

Lemma ap_is c u : In c (a_cons a) -> Is tI a c u = XB (N.eqb (kcls u) (c_cls c)).
Proof.
  intro Hc. unfold Is. change (apply (a_cls a, n_is a c) [u] = XB (N.eqb (kcls u) (c_cls c))).
  rewrite (apply_tab a _ (KI c) _ Ha); [reflexivity|]. apply in_or_app. left. apply in_or_app. right. apply in_or_app. right. right.
  apply in_or_app. right. apply in_map_iff. eauto.
Qed.

Lemma ap_bx u : Bx tI a u = XX u.
Proof.
  unfold Bx. change (apply (a_cls a, n_box a) [u] = XX u).
  rewrite (apply_tab a _ KB _ Ha); [reflexivity|]. apply in_or_app. right. left. reflexivity.
Qed.

Lemma ap_ub r : Ub tI a r = apk a KU [r].
Proof.
  unfold Ub. change (apply (a_cls a, n_unbox a) [r] = apk a KU [r]).
  rewrite (apply_tab a _ KU _ Ha); [reflexivity|]. apply in_or_app. right. right. left. reflexivity.
Qed.

Lemma nonempty : a_cons a <> [].
Proof. apply (create_adts_in _ _ _ CA a Ha). Qed.

Lemma first_in : In (first a) (a_cons a).
Proof. unfold first. pose proof nonempty. destruct (a_cons a); [congruence|]. left. reflexivity. Qed.

Lemma first_is c : In c (a_cons a) -> is_first a c = true -> c = first a.
Proof.
  intros Hc E. apply N.eqb_eq in E. apply (cons_inj w p W a c a (first a)); auto. apply first_in.
Qed.

Lemma kcls_o : kcls (XO (a_cls a)) = c_cls (first a).
Proof. cbn. rewrite (find_adt_ok a Ha). reflexivity. Qed.

Lemma kcls_mk c l : In c (a_cons a) -> kcls (mk a c l) = c_cls c.
Proof.
  intro Hc. unfold mk. destruct (folded a c l) eqn:E; [|reflexivity]. unfold folded in E. apply andb_true_iff in E.
  rewrite kcls_o. f_equal. symmetry. apply first_is; tauto.
Qed.

Lemma argsof_mk c l : argsof a c (mk a c l) = l.
Proof.
  unfold mk. destruct (folded a c l) eqn:E.
  - unfold folded in E. apply andb_true_iff in E. destruct E as [_ E]. apply all_dflt_iff in E. simpl. symmetry. exact E.
  - simpl. rewrite N.eqb_refl. reflexivity.
Qed.

Lemma mk_has c l : In c (a_cons a) -> okl tI a (c_fields c) l -> hv (SAdt (a_cls a)) (mk a c l).
Proof. intros Hc O. unfold mk. destruct (folded a c l) eqn:E; constructor; auto. Qed.

Lemma dflt_has t : hv (field_sort a t) (dflt a t).
Proof. destruct t; simpl; constructor; auto. apply (ww_none _ _ W). Qed.

Lemma dargs_ok c : okl tI a (c_fields c) (dargs a c).
Proof. unfold okl, dargs. induction (c_fields c); simpl; constructor; auto. apply dflt_has. Qed.

Lemma view v : hv (SAdt (a_cls a)) v ->
  (exists c l, In c (a_cons a) /\ okl tI a (c_fields c) l /\ v = mk a c l) \/
  (exists c, In c (a_cons a) /\ c_fields c = [] /\ v = XN (a_cls a) (c_cls c)).
Proof.
  intro H. inversion H; subst.
  - left. exists (first a), (dargs a (first a)). split; [apply first_in|]. split; [apply dargs_ok|].
    unfold mk, folded. unfold is_first. rewrite N.eqb_refl. cbn [andb]. rewrite (proj2 (all_dflt_iff a (c_fields (first a)) (dargs a (first a))) eq_refl). rewrite H0. reflexivity.
  - assert (a0 = a) by (apply adt_inj; auto). subst a0. left. exists c, l. split; [auto|]. split; [auto|].
    unfold mk. match goal with Hf : folded _ _ _ = false |- _ => rewrite Hf end. reflexivity.
  - assert (a0 = a) by (apply adt_inj; auto). subst a0. right. exists c. auto.
Qed.

Lemma kcls_in v : hv (SAdt (a_cls a)) v -> exists c, In c (a_cons a) /\ kcls v = c_cls c.
Proof.
  intro H. destruct (view v H) as [(c & l & Hc & O & ->)|(c & Hc & Ef & ->)]; exists c; split; auto. apply kcls_mk. auto.
Qed.

Lemma argsof_ok c v : In c (a_cons a) -> hv (SAdt (a_cls a)) v -> okl tI a (c_fields c) (argsof a c v).
Proof.
  intros Hc H. destruct (view v H) as [(c' & l & Hc' & O & ->)|(c' & Hc' & Ef & ->)]; [|apply dargs_ok].
  unfold mk. destruct (folded a c' l); [apply dargs_ok|]. simpl. destruct (N.eqb (c_cls c') (c_cls c)) eqn:E; [|apply dargs_ok].
  apply N.eqb_eq in E. rewrite (cons_inj w p W a c' a c) in O; auto.
Qed.

Lemma ref_types r : hv SRef r -> w_inst w (tyv r) \/ exists b c, In b p /\ In c (a_cons b) /\ tyv r = c_cls c.
Proof. intro H. inversion H; subst; [left; assumption|]. right. simpl. 
  clear H. pose proof H1 as H1'. inversion H1; subst.
  - exists a1. assert (a1 = a0) by (apply adt_inj; auto). subst a1. exists (hd no_cons (a_cons a0)).
    pose proof (proj1 (create_adts_in _ _ _ CA a0 H0)) as NE. split; [auto|]. split; [destruct (a_cons a0); [congruence|left; auto]|].
    cbn. rewrite (find_adt_ok a0 H0). reflexivity.
  - exists a1, c. auto.
  - exists a1, c. auto.
Qed.

Lemma nth_ok fs l i f : okl tI a fs l -> nth_error fs i = Some f -> hv (field_sort a (f_ty f)) (nth i l (XI 0)).
Proof.
  unfold okl. intro H. revert i. induction H; intros [|i] E; try discriminate; simpl in *.
  - injection E as ->. auto.
  - apply IHForall2. exact E.
Qed.

Lemma map_nth_id (fs : list fld) l : okl tI a fs l ->
  forall c u, (forall i f, nth_error fs i = Some f -> Dc tI a c f u = nth i l (XI 0)) -> map (fun f => Dc tI a c f u) fs = l.
Proof.
  unfold okl. intro H. induction H as [|f v fs l Hv H IH]; intros c u E; simpl; auto. f_equal.
  - exact (E 0 f eq_refl).
  - apply IH. intros i g Hi. exact (E (S i) g Hi).
Qed.

Lemma unbox_of_adt v : hv (SAdt (a_cls a)) v -> apk a KU [XX v] = v.
Proof.
  intro H. inversion H; subst; simpl; repeat match goal with E : a_cls _ = a_cls a |- _ => rewrite E; clear E end;
    rewrite ?N.eqb_refl; auto.
Qed.

Lemma model_sem : sem w tI a.
Proof.
  constructor.
  - intros c l1 l2 Hc Hf O1 O2. rewrite !ap_cons by auto. split; [|congruence]. intro E.
    rewrite <- (argsof_mk c l1), <- (argsof_mk c l2), E. reflexivity.
  - intros c l i f v Hc O Hf Hv. rewrite ap_cons by auto. rewrite (ap_decons c f i) by auto. rewrite argsof_mk.
    apply nth_error_nth. exact Hv.
  - intros c f k u Hc Hf Hk Hu. destruct (In_nth_error _ _ Hf) as [i Hi]. rewrite (ap_decons c f i) by auto.
    pose proof (nth_ok _ _ _ _ (argsof_ok c u Hc Hu) Hi) as H. rewrite Hk in H. simpl in H.
    destruct (CU a c f k Ha Hc Hf Hk) as [U1 U2]. change (tyof tI) with tyv.
    destruct (ref_types _ H) as [E|(b & c' & Hb & Hc' & E)]; [apply U1; auto|]. rewrite E. eapply U2; eauto.
  - intros c u Hc Hf Hu Ht. rewrite ap_is in Ht by auto. change (truth tI) with (fun v => v = XB true) in Ht. cbn beta in Ht.
    injection Ht as Ht. apply N.eqb_eq in Ht. rewrite ap_cons by auto.
    destruct (view u Hu) as [(c' & l & Hc' & O & ->)|(c' & Hc' & Ef & ->)].
    + rewrite kcls_mk in Ht by auto. rewrite (cons_inj w p W a c' a c) in * by auto. f_equal. symmetry. apply map_nth_id; auto.
      intros i f Hi. rewrite (ap_decons c f i) by auto. rewrite argsof_mk. reflexivity.
    + simpl in Ht. rewrite (cons_inj w p W a c' a c) in * by auto. congruence.
  - intros c l Hc O. rewrite ap_ct, ap_kc, ap_cons, kcls_mk by auto. reflexivity.
  - intros u Hu. destruct (kcls_in u Hu) as (c & Hc & E). exists c. split; [auto|]. rewrite ap_ct, ap_kc, E by auto. reflexivity.
  - intros c u Hc Hu. rewrite ap_ct, ap_kc, ap_is by auto. change (truth tI) with (fun v => v = XB true). cbn beta.
    rewrite <- N.eqb_eq || idtac. split.
    + intros [= E]. apply N2Z.inj in E. rewrite E, N.eqb_refl. reflexivity.
    + intros [= E]. apply N.eqb_eq in E. rewrite E. reflexivity.
  - intros r Hr Hs. change (tyof tI) with tyv in *. inversion Hr; subst.
    + cbn [tyv] in Hs. rewrite (ww_inst _ _ W a k Ha H) in Hs. discriminate.
    + simpl in Hs |- *. assert (K : exists c, In c (a_cons a0) /\ kcls v = c_cls c).
      { inversion H0; subst.
        - assert (a1 = a0) by (apply adt_inj; auto). subst a1. exists (first a0). split.
          + unfold first. pose proof (proj1 (create_adts_in _ _ _ CA a0 H)). destruct (a_cons a0); [congruence|left; auto].
          + cbn. rewrite (find_adt_ok a0 H). reflexivity.
        - assert (a1 = a0) by (apply adt_inj; auto). subst a1. exists c. auto.
        - assert (a1 = a0) by (apply adt_inj; auto). subst a1. exists c. auto. }
      destruct K as (c & Hc & E). rewrite E in *. rewrite (ww_other _ _ W a0 a c H Ha Hc Hs). eauto.
  - intros u Hu. rewrite ap_bx. change (tyof tI) with tyv. simpl. destruct (kcls_in u Hu) as (c & Hc & E). rewrite E.
    apply (ww_cons_sub _ _ W); auto.
  - intros u Hu. rewrite ap_bx, ap_ub. apply unbox_of_adt. exact Hu.
  - intros c u Hc Hu. rewrite ap_is, ap_bx by auto. change (tyof tI) with tyv. change (truth tI) with (fun v => v = XB true). simpl.
    split.
    + intros [= E]. apply N.eqb_eq. exact E.
    + intros E. rewrite E, N.eqb_refl. reflexivity.
  - intros u v Hu Hv. rewrite !ap_bx. split; congruence.
  - intros r Hr Hs. change (tyof tI) with tyv in *. rewrite ap_bx, ap_ub. inversion Hr; subst.
    + cbn [tyv] in Hs. rewrite (ww_inst _ _ W a k Ha H) in Hs. discriminate.
    + assert (a0 = a).
      { inversion H0; subst; simpl in Hs.
        - assert (a1 = a0) by (apply adt_inj; auto). subst a1. rewrite (find_adt_ok a0 H) in Hs.
          symmetry. apply (ww_other _ _ W a0 a (first a0)); auto.
          unfold first. pose proof (proj1 (create_adts_in _ _ _ CA a0 H)). destruct (a_cons a0); [congruence|left; auto].
        - assert (a1 = a0) by (apply adt_inj; auto). subst a1. symmetry. eapply (ww_other _ _ W a0 a c); eauto.
        - assert (a1 = a0) by (apply adt_inj; auto). subst a1. symmetry. eapply (ww_other _ _ W a0 a c); eauto. }
      subst a0. f_equal. apply unbox_of_adt. exact H0.
Qed.

Lemma has_fun d l : In d (decls a) -> Forall2 hv (d_args d) l -> hv (d_res d) (apply (d_sym d) l).
Proof.
  intros Hd O. unfold decls, domain_decls in Hd. rewrite !in_app_iff in Hd. destruct Hd as [[Hd|[Hd|Hd]]|Hd].
  - apply in_map_iff in Hd. destruct Hd as (c & <- & Hc). cbn in O |- *.
    change (apply (s_cons a c) l) with (Cn tI a c l). rewrite ap_cons by auto. apply mk_has; [auto|]. apply okl_forall2. exact O.
  - apply in_flat_map in Hd. destruct Hd as (c & Hc & Hd). apply in_map_iff in Hd. destruct Hd as (f & <- & Hf). cbn in O |- *.
    inversion O; subst. inversion H3; subst. change (apply (s_decons a c f) [y]) with (Dc tI a c f y).
    destruct (In_nth_error _ _ Hf) as [i Hi]. rewrite (ap_decons c f i) by auto. apply (nth_ok (c_fields c)); auto.
    apply argsof_ok; auto.
  - destruct Hd as [<-|Hd]; [|apply in_app_or in Hd; destruct Hd as [Hd|Hd]; apply in_map_iff in Hd; destruct Hd as (c & <- & Hc)];
      cbn in O |- *.
    + inversion O; subst. inversion H3; subst. change (apply (s_cons_type a) [y]) with (Ct tI a y). rewrite ap_ct. constructor.
    + inversion O; subst. change (apply (s_const a c) []) with (Kc tI a c). rewrite ap_kc by auto. constructor.
    + inversion O; subst. inversion H3; subst. change (apply (s_is a c) [y]) with (Is tI a c y). rewrite ap_is by auto. constructor.
  - destruct Hd as [<-|[<-|[]]]; cbn in O |- *; inversion O; subst; inversion H3; subst.
    + change (apply (s_box a) [y]) with (Bx tI a y). rewrite ap_bx. econstructor; eauto.
    + change (apply (s_unbox a) [y]) with (Ub tI a y). rewrite ap_ub. inversion H1; subst; simpl; [constructor; auto|].
      inversion H0; subst; simpl.
      * destruct (N.eqb (a_cls a1) (a_cls a)) eqn:E; [apply N.eqb_eq in E; rewrite E|]; constructor; auto.
      * destruct (N.eqb (a_cls a1) (a_cls a)) eqn:E; [|constructor; auto]. apply N.eqb_eq in E. rewrite <- E. constructor; auto.
      * destruct (N.eqb (a_cls a1) (a_cls a)) eqn:E; [|constructor; auto]. apply N.eqb_eq in E. rewrite <- E. constructor; auto.
Qed.

Lemma decl_sorts d s : In d (decls a) -> s = d_res d \/ In s (d_args d) ->
  s = SInt \/ s = SBool \/ s = SRef \/ s = SAdt (a_cls a).
Proof.
  assert (K : forall t, field_sort a t = SInt \/ field_sort a t = SBool \/ field_sort a t = SRef \/ field_sort a t = SAdt (a_cls a))
    by (intros []; simpl; auto).
  intros Hd Hs. unfold decls, domain_decls in Hd. rewrite !in_app_iff in Hd. destruct Hd as [[Hd|[Hd|Hd]]|Hd].
  - apply in_map_iff in Hd. destruct Hd as (c & <- & Hc). cbn in Hs. destruct Hs as [->|Hs]; [auto|].
    apply in_map_iff in Hs. destruct Hs as (f & <- & _). apply K.
  - apply in_flat_map in Hd. destruct Hd as (c & Hc & Hd). apply in_map_iff in Hd. destruct Hd as (f & <- & Hf). cbn in Hs.
    destruct Hs as [->|[<-|[]]]; auto.
  - destruct Hd as [<-|Hd]; [|apply in_app_or in Hd; destruct Hd as [Hd|Hd]; apply in_map_iff in Hd; destruct Hd as (c & <- & Hc)];
      cbn in Hs; intuition (subst; auto).
  - destruct Hd as [<-|[<-|[]]]; cbn in Hs; intuition (subst; auto).
Qed.

Lemma unique_decl d : In d (decls a) -> d_unique d = true ->
  exists c, In c (a_cons a) /\ d_sym d = s_const a c /\ apply (d_sym d) [] = XI (Z.of_N (c_cls c)).
Proof.
  intros Hd U. unfold decls, domain_decls in Hd. rewrite !in_app_iff in Hd. destruct Hd as [[Hd|[Hd|Hd]]|Hd].
  - apply in_map_iff in Hd. destruct Hd as (c & <- & Hc). discriminate.
  - apply in_flat_map in Hd. destruct Hd as (c & Hc & Hd). apply in_map_iff in Hd. destruct Hd as (f & <- & Hf). discriminate.
  - destruct Hd as [<-|Hd]; [discriminate|]. apply in_app_or in Hd; destruct Hd as [Hd|Hd]; apply in_map_iff in Hd; destruct Hd as (c & <- & Hc).
    + exists c. split; [auto|]. split; [reflexivity|]. exact (ap_kc c Hc).
    + discriminate.
  - destruct Hd as [<-|[<-|[]]]; discriminate.
Qed.
End One.

Lemma consistent : is_model w tI ds axs.
Proof.
  destruct (create_adts_out _ _ _ CA) as [OD OA].
  constructor.
  - exists XI. split; [congruence|]. intro u. split.
    + intro H. inversion H. eauto.
    + intros [x ->]. constructor.
  - exists (XB true), (XB false). split; [reflexivity|]. split; [discriminate|]. intro u. split.
    + intro H. inversion H. destruct b; auto.
    + intros [->| ->]; constructor.
  - constructor. apply (ww_none _ _ W).
  - intros u Hu. cbn. split.
    + intro Hs. inversion Hu; subst.
      * f_equal. apply (ww_only_none _ _ W); auto.
      * exfalso. cbn in Hs. destruct (kcls_in a H v H0) as (c & Hc & E). rewrite E in Hs.
        rewrite (ww_cons_none _ _ W a c H Hc) in Hs. discriminate.
    + intros ->. apply (ww_refl _ _ W).
  - intros k Hk. exists (XR k). split; [constructor; auto|reflexivity].
  - intros d s Hd Hs. destruct (OD d Hd) as (a & Ha & Hd'). destruct (decl_sorts a d s Hd' Hs) as [->|[->|[->| ->]]].
    + exists (XI 0). constructor.
    + exists (XB true). constructor.
    + exists (XR (w_none w)). constructor. apply (ww_none _ _ W).
    + exists (XO (a_cls a)). constructor. auto.
  - intros d l Hd O. destruct (OD d Hd) as (a & Ha & Hd'). apply (has_fun a Ha); auto.
  - intros d d' Hd Hd' U U' N E. destruct (OD d Hd) as (a & Ha & Hda). destruct (OD d' Hd') as (a' & Ha' & Hda').
    destruct (unique_decl a Ha d Hda U) as (c & Hc & Es & Ev). destruct (unique_decl a' Ha' d' Hda' U') as (c' & Hc' & Es' & Ev').
    assert (E2 : XI (Z.of_N (c_cls c)) = XI (Z.of_N (c_cls c'))) by (rewrite <- Ev, <- Ev'; exact E). clear E. injection E2 as E. apply N2Z.inj in E.
    pose proof (cons_inj w p W a c a' c' Ha Hc Ha' Hc' E). subst c'. apply N. rewrite Es, Es'.
    assert (a' = a).
    { apply (ww_other _ _ W a a' c); auto. apply (ww_cons_sub _ _ W); auto. }
    subst a'. reflexivity.
  - intros q e Hq. destruct (OA q Hq) as (a & Ha & Hq').
    apply (proj2 (axioms_sem w tI a (fun _ => XR (w_none w)) (nonempty a Ha)) (model_sem a Ha)). exact Hq'.
Qed.
End Build.
