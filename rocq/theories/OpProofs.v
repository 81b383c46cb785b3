From Coq Require Import Bool Arith List String Lia.
From Verif Require Import ClsModel ClsSpec ClsProofs OpModel OpSpec.
Import ListNotations.

Lemma left_name o : LEFT_OPERATOR_FUNCTIONS o = special "" o. Proof. destruct o; reflexivity. Qed.
Lemma right_name o : RIGHT_OPERATOR_FUNCTIONS o = special "r" o. Proof. destruct o; reflexivity. Qed.
Lemma inplace_name o : INPLACE_OPERATOR_FUNCTIONS o = special "i" o. Proof. destruct o; reflexivity. Qed.
Lemma cmp_name o : compare_func o = ("__" ++ compare_name o ++ "__")%string. Proof. destruct o; reflexivity. Qed.

Section S.
Context (n : nat) (P : program) (W : wf_table n (classes P)) (SEP : separate n (classes P)).
Notation tb := (classes P).

Lemma call_spec s c x : get_func_or_method_call P s c x =
  match get_func_or_method tb c x with Some d => Calls s d x | None => Rejected end.
Proof.
  unfold get_func_or_method_call, get_func_or_method. destruct (get_function tb c x); auto.
Qed.
Lemma lookup_finds c x d : c < n -> no_shadow tb x c -> (get_func_or_method tb c x = Some d <-> finds tb c x d).
Proof. intros L NS. apply (get_func_or_method_spec n tb W c x L SEP NS). Qed.
Lemma finds_lt c x d : c < n -> finds tb c x d -> d < n.
Proof. intros L (I & _). pose proof (inherits_le n tb W _ _ L I). lia. Qed.
Lemma finds_unique c x d e : finds tb c x d -> finds tb c x e -> c < n -> d = e.
Proof. intros F G L. now apply (nearest_unique n tb W (defines tb x) c). Qed.
Lemma lookup_none_finds c x : c < n -> no_shadow tb x c -> get_func_or_method tb c x = None -> forall d, ~ finds tb c x d.
Proof. intros L NS E d F. apply lookup_finds in F; auto. congruence. Qed.

Lemma param_ok_spec p c : c < n -> (param_ok tb p c = true <-> belongs tb p c).
Proof.
  intros L. destruct p as [k|ks]; cbn.
  - now apply issubtype_spec with n.
  - rewrite existsb_exists, Exists_exists. split; intros (k & I & H); exists k; (split; [auto|]); now apply (issubtype_spec n tb W c k L).
Qed.

(** The compatible member is the one found that handles the argument. *)
Lemma compatible_spec h (c : cid) x (a d : cid) : c < n -> a < n -> no_shadow tb x c -> declared n P h x ->
  (get_compatible_func_or_method P c x [c; a] = Some d <-> finds tb c x d /\ h d x a).
Proof.
  intros L A NS D. unfold get_compatible_func_or_method.
  destruct (get_func_or_method tb c x) as [e|] eqn:G.
  - pose proof (proj1 (lookup_finds c x e L NS) G) as F. pose proof (finds_lt _ _ _ L F) as EL.
    destruct (D e EL) as (p & EP & H). { apply F. }
    rewrite EP. cbn [params_ok]. rewrite andb_true_r. change (param_ok tb (PClass e)) with (fun a => issubtype tb a e). cbv beta.
    assert (issubtype tb c e = true) as ->. { apply (issubtype_spec n tb W); auto. apply F. }
    cbn [andb]. pose proof (param_ok_spec p a A) as PO. rewrite <- (H a A) in PO.
    destruct (param_ok tb p a) eqn:E.
    + split; [intros [= <-]; split; auto; now apply PO|]. intros (F' & _). f_equal. eapply finds_unique; [eassumption|eassumption|assumption].
    + split; [discriminate|]. intros (F' & H'). assert (e = d) as -> by (eapply finds_unique; [eassumption|eassumption|assumption]).
      apply PO in H'. congruence.
  - split; [discriminate|]. intros (F & _). exfalso. exact (lookup_none_finds c x L NS G d F).
Qed.
Lemma compatible_none h (c : cid) x (a : cid) : c < n -> a < n -> no_shadow tb x c -> declared n P h x ->
  get_compatible_func_or_method P c x [c; a] = None -> forall d, finds tb c x d -> ~ h d x a.
Proof. intros L A NS D E d F H. assert (get_compatible_func_or_method P c x [c; a] = Some d) by (eapply compatible_spec; eauto). congruence. Qed.
(** Asked on a superclass. *)
Lemma compatible_base h (l r : cid) x (d : cid) : l < n -> r < n -> inherits tb r l -> no_shadow tb x l -> declared n P h x ->
  (get_compatible_func_or_method P l x [r; l] = Some d <-> finds tb l x d /\ h d x l).
Proof.
  intros L R I NS D. unfold get_compatible_func_or_method.
  destruct (get_func_or_method tb l x) as [e|] eqn:G.
  - pose proof (proj1 (lookup_finds l x e L NS) G) as F. pose proof (finds_lt _ _ _ L F) as EL.
    destruct (D e EL) as (p & EP & H). { apply F. }
    rewrite EP. cbn [params_ok]. rewrite andb_true_r. change (param_ok tb (PClass e)) with (fun a => issubtype tb a e). cbv beta.
    assert (issubtype tb r e = true) as ->. { apply (issubtype_spec n tb W); auto. eapply (inherits_trans tb); eauto. apply F. }
    cbn [andb]. pose proof (param_ok_spec p l L) as PO. rewrite <- (H l L) in PO.
    destruct (param_ok tb p l) eqn:E.
    + split; [intros [= <-]; split; auto; now apply PO|]. intros (F' & _). f_equal. eapply finds_unique; [eassumption|eassumption|assumption].
    + split; [discriminate|]. intros (F' & H'). assert (e = d) as -> by (eapply finds_unique; [eassumption|eassumption|assumption]).
      apply PO in H'. congruence.
  - split; [discriminate|]. intros (F & _). exfalso. exact (lookup_none_finds l x L NS G d F).
Qed.

Lemma overrides_some d x : method_overrides P d x <> None ->
  builtin P d = false /\ exists p, superclass tb d = Some p /\ defines tb x p.
Proof.
  unfold method_overrides, overrides. destruct (builtin P d); [congruence|].
  destruct (superclass tb d) as [p|]; [|congruence]. destruct (mem x (get_contents tb p)) eqn:M; [|congruence].
  intros _. split; auto. exists p. split; auto. apply contents_defines. now apply mem_In.
Qed.
Lemma overrides_intro d x p : builtin P d = false -> superclass tb d = Some p -> defines tb x p -> method_overrides P d x <> None.
Proof.
  unfold method_overrides, overrides. intros -> -> D. apply contents_defines in D. apply mem_In in D. rewrite D. discriminate.
Qed.

(** The test that decides whether the reflected method comes first. *)
Lemma first_spec h (l r : cid) x (d : cid) : l < n -> r < n -> l <> r -> no_shadow tb x l -> no_shadow tb x r ->
  declared n P h x -> direct_redefinition P x r -> original tb x l ->
  finds tb r x d -> h d x l -> inherits tb r l ->
  ((method_overrides P d x <> None \/ get_compatible_func_or_method P l x [r; l] = None) <-> overloads tb x l r).
Proof.
  intros L R NE NL NR DC DR OR F H I.
  split.
  - intros C. split; auto. split; auto. exists d. split; auto. intros FL. destruct C as [C|C].
    + apply overrides_some in C as (_ & p & S & DP).
      assert (p = d) as ->. { eapply OR; eauto. eapply inh_step; [eauto|constructor]. }
      pose proof (finds_lt _ _ _ R F). pose proof (super_lt n tb W d d H0 S). lia.
    + assert (get_compatible_func_or_method P l x [r; l] = Some d) by (eapply compatible_base; eauto). congruence.
  - intros (_ & _ & d' & F' & NF). assert (d' = d) as -> by (eapply finds_unique; [eassumption|eassumption|assumption]).
    destruct (get_compatible_func_or_method P l x [r; l]) as [e|] eqn:E; [|auto]. left.
    apply (compatible_base h l r x e L R I NL DC) in E as (FE & HE).
    assert (d <> e) as DE by (intros ->; auto).
    assert (inherits tb d e) as IDE. { apply F; [|apply FE]. eapply (inherits_trans tb); [exact I|apply FE]. }
    destruct (DR d e) as (B & p & S & DP); auto; try apply F; try apply FE.
    eapply overrides_intro; eauto.
Qed.

Lemma binop_agrees h o (l r : cid) s d x : l < n -> r < n ->
  no_shadow tb (left_id o) l -> no_shadow tb (right_id o) l -> no_shadow tb (right_id o) r ->
  declared n P h (left_id o) -> declared n P h (right_id o) ->
  direct_redefinition P (right_id o) r -> original tb (right_id o) l ->
  py_binop tb h o l r s d x -> translate_operator P o false l r = Calls s d x.
Proof.
  intros L R N1 N2 N3 D1 D2 DR OR PY. unfold translate_operator.
  rewrite left_name, right_name. cbv zeta. fold (left_id o) (right_id o).
  destruct (Nat.eqb_spec l r) as [->|NE].
  { rewrite call_spec. inversion PY as [d' O F H|d' O F H|d' O NO2 NH F H]; subst; try now destruct O.
    rewrite (proj2 (lookup_finds r (left_id o) d R N1) F). reflexivity. }
  destruct (get_compatible_func_or_method P r (right_id o) [r; l]) as [rf|] eqn:ER.
  - pose proof ER as ER'. apply (compatible_spec h) in ER' as (FR & HR); auto.
    assert (get_func_or_method_call P true r (right_id o) = Calls true rf (right_id o)) as CR.
    { rewrite call_spec, (proj2 (lookup_finds r (right_id o) rf R N3) FR). reflexivity. }
    assert (forall T, overloads tb (right_id o) l r \/ (forall e, finds tb l (left_id o) e -> ~ h e (left_id o) r) ->
              T = Calls true rf (right_id o) -> T = Calls s d x) as TR.
    { intros T C ->. inversion PY as [d' O F H|d' O F H|d' O NO2 NH F H]; subst.
      - f_equal. eapply finds_unique; [eassumption|eassumption|assumption].
      - exfalso. destruct C as [C|C]; [eapply O; eauto|eapply C; eauto].
      - f_equal. eapply finds_unique; [eassumption|eassumption|assumption]. }
    assert (~ overloads tb (right_id o) l r ->
       match get_compatible_func_or_method P l (left_id o) [l; r] with
       | Some _ => get_func_or_method_call P false l (left_id o)
       | None => get_func_or_method_call P true r (right_id o) end = Calls s d x) as REST.
    { intros NO. destruct (get_compatible_func_or_method P l (left_id o) [l; r]) as [lf|] eqn:EL.
      - apply (compatible_spec h) in EL as (FL & HL); auto.
        rewrite call_spec, (proj2 (lookup_finds l (left_id o) lf L N1) FL).
        inversion PY as [d' O F H|d' O F H|d' O NO2 NH F H]; subst; try contradiction.
        + f_equal. eapply finds_unique; [eassumption|eassumption|assumption].
        + exfalso. exact (NH _ FL HL).
      - apply TR; auto. right. apply (compatible_none h); auto. }
    destruct (issubtype tb r l) eqn:SUB.
    + apply (issubtype_spec n tb W) in SUB; auto.
      pose proof (first_spec h l r (right_id o) rf L R NE N2 N3 D2 DR OR FR HR SUB) as FS.
      destruct (method_overrides P rf (right_id o)) eqn:MO.
      * apply TR; auto. left. apply FS. left. congruence.
      * destruct (get_compatible_func_or_method P l (right_id o) [r; l]) eqn:BR.
        -- apply REST. intros O. apply FS in O as [O|O]; congruence.
        -- apply TR; auto. left. apply FS. auto.
    + apply REST. intros (_ & I & _). apply (issubtype_spec n tb W) in I; auto. congruence.
  - assert (forall e, finds tb r (right_id o) e -> ~ h e (right_id o) l) as NR by (apply (compatible_none h); auto).
    destruct (get_compatible_func_or_method P l (left_id o) [l; r]) as [lf|] eqn:EL.
    + apply (compatible_spec h) in EL as (FL & HL); auto.
      rewrite call_spec, (proj2 (lookup_finds l (left_id o) lf L N1) FL).
      inversion PY as [d' O F H|d' O F H|d' O NO2 NH F H]; subst; try (exfalso; eapply NR; eauto; fail).
      f_equal. eapply finds_unique; [eassumption|eassumption|assumption].
    + pose proof (compatible_none h l (left_id o) r L R N1 D1 EL) as NL.
      inversion PY as [d' O F H|d' O F H|d' O NO2 NH F H]; subst; exfalso; [eapply NR|eapply NL|eapply NR]; eauto.
Qed.

Lemma augassign_agrees h o (l r : cid) s d x : l < n -> r < n ->
  no_shadow tb (inplace_id o) l -> declared n P h (inplace_id o) ->
  no_shadow tb (left_id o) l -> no_shadow tb (right_id o) l -> no_shadow tb (right_id o) r ->
  declared n P h (left_id o) -> declared n P h (right_id o) ->
  direct_redefinition P (right_id o) r -> original tb (right_id o) l ->
  py_augassign tb h o l r s d x -> translate_augassign P o false l r = Calls s d x.
Proof.
  intros L R N0 D0 N1 N2 N3 D1 D2 DR OR PY. unfold translate_augassign.
  rewrite inplace_name. fold (inplace_id o).
  destruct (get_compatible_func_or_method P l (inplace_id o) [l; r]) as [f|] eqn:E.
  - apply (compatible_spec h) in E as (F & H); auto.
    rewrite call_spec, (proj2 (lookup_finds l (inplace_id o) f L N0) F).
    inversion PY as [d' F' H'|s' d' x' NH PY']; subst; [f_equal; eapply finds_unique; [eassumption|eassumption|assumption]|exfalso; exact (NH _ F H)].
  - pose proof (compatible_none h l (inplace_id o) r L R N0 D0 E) as NI.
    inversion PY; subst; [exfalso; eapply NI; eauto|]. eapply binop_agrees; eauto.
Qed.

(** Operands that are instances of subclasses of their static types. *)
Lemma binop_subclasses h o (L R l r : cid) s e x : L < n -> R < n -> l < n -> r < n ->
  inherits tb l L -> inherits tb r R -> L = R \/ ~ inherits tb R L ->
  no_shadow tb (left_id o) l -> no_shadow tb (left_id o) L -> declared n P h (left_id o) ->
  (forall d' e' c, inherits tb e' d' -> defines tb (left_id o) d' -> defines tb (left_id o) e' ->
     h d' (left_id o) c -> h e' (left_id o) c) ->
  ~ overloads tb (right_id o) l r ->
  (exists d, finds tb L (left_id o) d /\ h d (left_id o) R) ->
  py_binop tb h o l r s e x ->
  s = false /\ x = left_id o /\ exists d, translate_operator P o false L R = Calls false d x /\ inherits tb e d.
Proof.
  intros LL RL ll rl IL IR REL N1 N2 DC MONO NO (d & F & H) PY.
  assert (h d (left_id o) r) as Hr.
  { pose proof (finds_lt _ _ _ LL F) as DL. destruct (DC d DL (proj1 (proj2 F))) as (p & _ & HB).
    apply HB; auto. apply HB in H; auto. destruct p as [k|ks]; cbn in *.
    - eapply (inherits_trans tb); eauto.
    - apply Exists_exists in H as (k & I & H). apply Exists_exists. exists k. split; auto. eapply (inherits_trans tb); eauto. }
  assert (translate_operator P o false L R = Calls false d (left_id o)) as T.
  { unfold translate_operator. rewrite left_name, right_name. cbv zeta. fold (left_id o) (right_id o).
    assert (get_func_or_method_call P false L (left_id o) = Calls false d (left_id o)) as C.
    { rewrite call_spec, (proj2 (lookup_finds L (left_id o) d LL N2) F). reflexivity. }
    destruct (Nat.eqb_spec L R) as [->|NE]; auto.
    assert (get_compatible_func_or_method P L (left_id o) [L; R] = Some d) as -> by (eapply compatible_spec; eauto).
    assert (issubtype tb R L = false) as ->. { apply (issubtype_false n tb W); auto. destruct REL; [contradiction|auto]. }
    destruct (get_compatible_func_or_method P R (right_id o) [R; L]); auto. }
  assert (forall e', finds tb l (left_id o) e' -> inherits tb e' d) as UP.
  { intros e' F'. apply F'; [|apply F]. eapply (inherits_trans tb); [exact IL|apply F]. }
  inversion PY as [d' O F' H'|d' O F' H'|d' O O' NH F' H']; subst; try contradiction.
  - split; auto. split; auto. exists d. split; auto.
  - exfalso.
    assert (exists e', finds tb l (left_id o) e') as (e' & FE).
    { destruct (get_func_or_method tb l (left_id o)) as [e'|] eqn:G.
      - exists e'. now apply lookup_finds.
      - exfalso. unfold get_func_or_method in G. destruct (get_function tb l (left_id o)) eqn:GF; [discriminate|].
        pose proof (proj1 (get_function_none n tb W l (left_id o) ll) GF) as NF.
        pose proof (proj1 (get_method_none n tb W l (left_id o) ll) G) as NM.
        assert (inherits tb l d) as ID by (eapply (inherits_trans tb); [exact IL|apply F]).
        destruct (proj1 (proj2 F)); [eapply NF|eapply NM]; eauto. }
    eapply NH; eauto. eapply MONO; [eapply UP; eauto|apply F|apply FE|auto].
Qed.

(** The type of an operator expression. *)
Lemma type_agrees o (l r : cid) s d x : translate_operator P o false l r = Calls s d x ->
  s = true \/ l = r \/ get_func_or_method tb r (right_id o) = None ->
  binop_type P o l r = Some (s_type (sigs P d x)).
Proof.
  unfold translate_operator, binop_type. rewrite left_name, right_name. cbv zeta. fold (left_id o) (right_id o).
  rewrite !call_spec. destruct (Nat.eqb_spec l r) as [->|NE].
  { destruct (get_func_or_method tb r (left_id o)); [|discriminate]. intros [= <- <- <-] _. reflexivity. }
  assert (forall c y a g, get_compatible_func_or_method P c y a = Some g -> get_func_or_method tb c y = Some g) as CG.
  { unfold get_compatible_func_or_method. intros c y a g. destruct (get_func_or_method tb c y); [|discriminate].
    destruct (params_ok _ _ _); congruence. }
  destruct (get_compatible_func_or_method P r (right_id o) [r; l]) as [rf|] eqn:ER.
  - rewrite (CG _ _ _ _ ER). intros T [->|[->|E]]; [|congruence|discriminate].
    destruct (get_compatible_func_or_method P l (left_id o) [l; r]) as [lf|] eqn:EL.
    + rewrite (CG _ _ _ _ EL) in T.
      destruct (issubtype tb r l); [|discriminate].
      destruct (method_overrides P rf (right_id o)); [|destruct (get_compatible_func_or_method P l (right_id o) [r; l])];
        try discriminate; injection T as <- <-; reflexivity.
    + destruct (issubtype tb r l); [|injection T as <- <-; reflexivity].
      destruct (method_overrides P rf (right_id o)); [|destruct (get_compatible_func_or_method P l (right_id o) [r; l])];
        injection T as <- <-; reflexivity.
  - destruct (get_compatible_func_or_method P l (left_id o) [l; r]) as [lf|] eqn:EL; [|discriminate].
    rewrite (CG _ _ _ _ EL). intros [= <- <- <-] _. reflexivity.
Qed.

Lemma unary_agrees o c d x : translate_unary P o c = Calls false d x ->
  unary_type P o c = Some (s_type (sigs P d x)).
Proof.
  unfold translate_unary, unary_type. rewrite call_spec.
  destruct (get_func_or_method tb c (member_id (unary_func o))); [|discriminate]. intros [= <- <-]. reflexivity.
Qed.
Lemma unary_finds o c d : c < n -> no_shadow tb (member_id (unary_func o)) c ->
  finds tb c (member_id (unary_func o)) d -> translate_unary P o c = Calls false d (member_id (unary_func o)).
Proof.
  intros L NS F. unfold translate_unary. rewrite call_spec, (proj2 (lookup_finds c _ d L NS) F). reflexivity.
Qed.

(** Comparisons. *)
Lemma function_finds c x d : c < n -> (forall e, inherits tb c e -> ~ defines_method tb x e) ->
  (get_function tb c x = Some d <-> finds tb c x d).
Proof.
  intros L NM. rewrite (get_function_spec n tb W) by auto. unfold finds, nearest, defines.
  split; intros (I & D & M); (split; [auto|]).
  - split; [auto|]. intros e IE [DE|DE]; auto. exfalso. eapply NM; eauto.
  - split. + destruct D; auto. exfalso. eapply NM; eauto. + intros e IE DE. apply M; auto.
Qed.
Lemma compare_agrees (h : handling) o (l r : cid) g d x : l < n -> r < n ->
  (r = l \/ ~ inherits tb r l) ->
  (forall e, inherits tb l e -> ~ defines_method tb (compare_id o) e /\ ~ defines_method tb (compare_id Eq) e) ->
  compare_method tb o l g d x -> h d x r -> (forall c, ~ h object_id (compare_id Eq) c) ->
  translate_comparison P o l r = CCalls g d x /\
  forall dec, py_compare tb h o l r dec -> dec = ByMethod false g d x.
Proof.
  intros L R NS NM CM H OB.
  assert (forall g' e y, compare_method tb o l g' e y -> (g', e, y) = (g, d, x)) as U.
  { intros g' e y CM'. inversion CM as [d1 F|d1 EO NF F]; inversion CM' as [d2 F2|d2 EO2 NF2 F2]; subst.
    - repeat f_equal; eapply finds_unique; [eassumption|eassumption|assumption].
    - exfalso. eapply NF2; eauto.
    - exfalso. eapply NF; eauto.
    - repeat f_equal; eapply finds_unique; [eassumption|eassumption|assumption]. }
  assert (forall c' x', (x' = compare_id Eq /\ c' = object_id) -> ~ h c' x' r) as OB' by (intros c' x' [-> ->]; apply OB).
  split.
  - unfold translate_comparison. rewrite cmp_name. fold (compare_id o).
    change (member_id "__eq__") with (compare_id Eq).
    assert (forall b, get_function_call P b l x = CCalls b d x) as GC.
    { intros b. unfold get_function_call. change (member_id "__eq__") with (compare_id Eq).
      assert (get_function tb l x = Some d) as ->.
      { apply function_finds; auto; inversion CM; subst; auto; intros e I; now apply NM. }
      destruct (Nat.eqb_spec x (compare_id Eq)) as [E|E]; [|reflexivity].
      destruct (Nat.eqb_spec d object_id) as [E'|E']; [|reflexivity]. exfalso. exact (OB' d x (conj E E') H). }
    inversion CM as [d1 F|d1 EO NF F]; subst.
    + assert (get_function tb l (compare_id o) = Some d) as ->. { apply function_finds; auto; intros e I; now apply NM. }
      apply GC.
    + assert (get_function tb l (compare_id NotEq) = None) as ->.
      { destruct (get_function tb l (compare_id NotEq)) eqn:E; auto. exfalso. apply function_finds in E; [|auto|intros e I; now apply NM].
        eapply NF; eauto. }
      assert (get_function tb l (compare_id Eq) = Some d) as ->. { apply function_finds; auto; intros e I; now apply NM. }
      apply GC.
  - intros dec PY. inversion PY as [g' d' x' NE I CM' H'|g' d' x' _ CM' H'|g' d' x' _ NH CM' H'|EO NH NH']; subst.
    + destruct NS; [congruence|contradiction].
    + specialize (U _ _ _ CM'). injection U as -> -> ->. reflexivity.
    + exfalso. exact (NH _ _ _ CM H).
    + exfalso. exact (NH _ _ _ CM H).
Qed.
(** Neither operand has comparison methods of its own. *)
Lemma compare_object (h : handling) o (l r : cid) : l < n -> r < n -> o = Eq \/ o = NotEq ->
  object_compares tb h ->
  (forall o' c e, c = l \/ c = r -> inherits tb c e -> defines tb (compare_id o') e -> e = object_id) ->
  (forall e, inherits tb l e -> ~ defines_method tb (compare_id Eq) e) ->
  translate_comparison P o l r = CObject (match o with NotEq => true | _ => false end) /\
  (forall dec, py_compare tb h o l r dec <-> dec = ByIdentity (match o with NotEq => true | _ => false end)).
Proof.
  intros L R EO (OC & OF & OH) OWN NM.
  assert (forall c, c = l \/ c = r -> inherits tb c object_id) as IO.
  { intros c C. apply (inherits_object n tb W). destruct C; subst; auto. }
  assert (forall c, c = l \/ c = r -> finds tb c (compare_id Eq) object_id) as FO.
  { intros c C. split; [auto|]. split; [now left|]. intros e I D. rewrite (OWN Eq c e C I D). constructor. }
  assert (forall c e, c = l \/ c = r -> ~ finds tb c (compare_id NotEq) e) as FN.
  { intros c e C (I & D & _). pose proof (OWN _ c e C I D) as ->. apply OC in D. discriminate. }
  assert (forall o' c g' e y, (o' = Eq \/ o' = NotEq) -> c = l \/ c = r -> compare_method tb o' c g' e y -> e = object_id /\ y = compare_id Eq) as CM.
  { intros o' c g' e y EO' C M. inversion M as [d1 F|d1 E NF F]; subst.
    - destruct EO' as [->| ->]; [|exfalso; exact (FN _ _ C F)]. split; auto. exact (OWN _ c e C (proj1 F) (proj1 (proj2 F))).
    - split; auto. exact (OWN _ c e C (proj1 F) (proj1 (proj2 F))). }
  assert (get_function tb l (compare_id Eq) = Some object_id) as GE.
  { apply function_finds; auto. }
  assert (forall b, get_function_call P b l (compare_id Eq) = CObject b) as GC.
  { intros b. unfold get_function_call. rewrite GE. reflexivity. }
  assert (reflection o = Eq \/ reflection o = NotEq) as RO by (destruct EO; subst; auto).
  split.
  - unfold translate_comparison. rewrite cmp_name. fold (compare_id o). change (member_id "__eq__") with (compare_id Eq).
    destruct EO as [->| ->].
    + rewrite GE. apply GC.
    + assert (get_function tb l (compare_id NotEq) = None) as ->.
      { destruct (get_function tb l (compare_id NotEq)) eqn:E; auto. exfalso.
        apply (get_function_spec n tb W) in E; auto. destruct E as (I & D & _).
        pose proof (OWN NotEq l c (or_introl eq_refl) I (or_introl D)) as ->.
        pose proof (proj1 (OC NotEq) (or_introl D)). discriminate. }
      rewrite GE. apply GC.
  - intros dec. split.
    + intros PY. inversion PY as [g' d' x' NE I CM' H'|g' d' x' _ CM' H'|g' d' x' _ NH CM' H'|EO' NH NH']; subst; auto; exfalso.
      * destruct (CM _ _ _ _ _ RO (or_intror eq_refl) CM') as [-> ->]. exact (OH _ H').
      * destruct (CM _ _ _ _ _ EO (or_introl eq_refl) CM') as [-> ->]. exact (OH _ H').
      * destruct (CM _ _ _ _ _ RO (or_intror eq_refl) CM') as [-> ->]. exact (OH _ H').
    + intros ->. apply pc_identity; auto.
      * intros g' e y CM'. destruct (CM _ _ _ _ _ EO (or_introl eq_refl) CM') as [-> ->]. apply OH.
      * intros g' e y CM'. destruct (CM _ _ _ _ _ RO (or_intror eq_refl) CM') as [-> ->]. apply OH.
Qed.
(** Whatever a comparison is translated to is the left operand's method for it. *)
Lemma compare_sound o (l r : cid) g d x : l < n ->
  (forall e, inherits tb l e -> ~ defines_method tb (compare_id o) e /\ ~ defines_method tb (compare_id Eq) e) ->
  (translate_comparison P o l r = CCalls g d x \/
   translate_comparison P o l r = CObject g /\ d = object_id /\ x = compare_id Eq) ->
  compare_method tb o l g d x.
Proof.
  intros L NM. unfold translate_comparison. rewrite cmp_name. fold (compare_id o). change (member_id "__eq__") with (compare_id Eq).
  assert (forall b y, (get_function_call P b l y = CCalls g d x \/ get_function_call P b l y = CObject g /\ d = object_id /\ x = compare_id Eq) ->
    b = g /\ x = y /\ get_function tb l y = Some d) as GC.
  { intros b y. unfold get_function_call. change (member_id "__eq__") with (compare_id Eq).
    destruct (get_function tb l y) as [e|]; [|intros [H|[H _]]; discriminate].
    destruct (Nat.eqb_spec y (compare_id Eq)); destruct (Nat.eqb_spec e object_id); cbn;
      intros [H|(H & -> & ->)]; try discriminate; injection H as; subst; auto. }
  destruct (get_function tb l (compare_id o)) as [e|] eqn:E.
  - intro H. apply GC in H. destruct H as (<- & -> & H). apply cm_own. apply function_finds; auto. intros e' I. now apply NM.
  - destruct o; try (intros [H|[H _]]; discriminate).
    destruct (get_function tb l (compare_id Eq)) as [e|] eqn:E'; [|intros [H|[H _]]; discriminate].
    intro H. apply GC in H. destruct H as (<- & -> & H). apply cm_default; auto.
    + intros e' F. apply function_finds in F; auto; [congruence|]. intros e'' I. now apply NM.
    + apply function_finds; auto. intros e' I. now apply NM.
Qed.
End S.

Lemma identity_axioms {Ref : Type} (null : Ref) : object_equality_axioms null eq.
Proof.
  split.
  - intros a b c [-> ->]. reflexivity.
  - intros a b. split; [split; congruence|]. split; [auto|]. intros N ->. apply N. tauto.
Qed.
