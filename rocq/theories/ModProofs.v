(** Proofs about module execution. *)
From Coq Require Import List Arith Lia Bool String.
From Verif Require Import ModModel ModSpec.
Import ListNotations.

Lemma in_eqb : forall m l, existsb (Nat.eqb m) l = true <-> In m l.
Proof.
  intros m l. rewrite existsb_exists. split.
  - intros (x & I & E). apply Nat.eqb_eq in E. subst. exact I.
  - intros I. exists m. split; [exact I|apply Nat.eqb_refl].
Qed.

Lemma gname_eqb_ok : forall a b, gname_eqb a b = true <-> a = b.
Proof.
  induction a as [x|p IHp g IHg]; intros [y|q h]; cbn [gname_eqb]; try (split; discriminate).
  - rewrite String.eqb_eq. split; congruence.
  - rewrite andb_true_iff, IHp, IHg. split; [intros [-> ->]; reflexivity|intros [= -> ->]; split; reflexivity].
Qed.

Lemma in_names : forall g l, existsb (gname_eqb g) l = true <-> In g l.
Proof.
  intros g l. rewrite existsb_exists. split.
  - intros (x & I & E). apply gname_eqb_ok in E. subst. exact I.
  - intros I. exists g. split; [exact I|apply gname_eqb_ok; reflexivity].
Qed.

Lemma vexecs_app : forall l l' st, vexecs (l ++ l') st = vexecs l' (vexecs l st).
Proof. intros l l' st. unfold vexecs. apply fold_left_app. Qed.
Lemma vexecs_cons : forall c l st, vexecs (c :: l) st = vexecs l (vexec c st).
Proof. reflexivity. Qed.

Section Prog.
  Context (P : program).

  Lemma from_in : forall m m', In m' (from_imports P m) <->
    exists c s, In c (body P m) /\ (c = TStar s \/ exists xs, c = TFrom s xs) /\ m' = modnum P s.
  Proof.
    intros m m'. unfold from_imports. rewrite in_flat_map. split.
    - intros (c & I & H). destruct c as [u e ms ds|s p|s xs|s]; cbn in H; try (destruct H; fail); destruct H as [<-|[]].
      + exists (TFrom s xs), s. split; [exact I|]. split; [right; eauto|reflexivity].
      + exists (TStar s), s. split; [exact I|]. split; [left; reflexivity|reflexivity].
    - intros (c & s & I & [->|[xs ->]] & ->); eexists; (split; [exact I|]); left; reflexivity.
  Qed.

  Lemma find_exact : exact_imports P -> forall m c s, In c (body P m) -> (c = TStar s \/ exists xs, c = TFrom s xs) ->
    find_import P m s = Some (modnum P s).
  Proof.
    intros X m c s I C. destruct (X m c s I C) as [N U]. unfold find_import.
    destruct (find _ (from_imports P m)) as [m'|] eqn:F.
    - apply find_some in F. destruct F as [J T]. apply from_in in J. destruct J as (c' & s' & J & C' & ->).
      f_equal. apply (U c' s' J C'). apply orb_true_iff in T. destruct T as [T|T]; [left; apply String.eqb_eq; exact T|right; exact T].
    - exfalso. assert (J : In (modnum P s) (from_imports P m)) by (apply from_in; exists c, s; tauto).
      apply (find_none _ _ F) in J. rewrite N, String.eqb_refl in J. discriminate.
  Qed.

  (** ** Translation terminates *)
  Lemma collect_none : forall (A B : Type) (h : B -> option (list A)) l,
    collect (map h l) = None -> exists b, In b l /\ h b = None.
  Proof.
    intros A B h l. induction l as [|b l IH]; cbn [map collect]; [discriminate|].
    destruct (h b) as [x|] eqn:H; [|intros _; exists b; split; [left; reflexivity|exact H]].
    destruct (collect (map h l)) as [y|]; [discriminate|]. intros _.
    destruct (IH eq_refl) as (c & I & E). exists c. split; [right; exact I|exact E].
  Qed.

  Definition rest (ms : list nat) (seen : list nat) : nat :=
    List.length (filter (fun m => negb (existsb (Nat.eqb m) seen)) ms).
  Lemma rest_le : forall ms seen seen', incl seen seen' -> rest ms seen' <= rest ms seen.
  Proof.
    intros ms seen seen' J. unfold rest. induction ms as [|m ms IH]; [reflexivity|]. cbn [filter].
    destruct (existsb (Nat.eqb m) seen) eqn:E.
    - apply in_eqb in E. apply J in E. apply in_eqb in E. rewrite E. exact IH.
    - destruct (existsb (Nat.eqb m) seen'); cbn [negb List.length]; lia.
  Qed.
  Lemma rest_lt : forall ms seen m, In m ms -> ~ In m seen -> rest ms (m :: seen) < rest ms seen.
  Proof.
    intros ms seen m I N. unfold rest. induction ms as [|k ms IH]; [destruct I|]. cbn [filter].
    destruct I as [->|I].
    - assert (E : existsb (Nat.eqb m) (m :: seen) = true) by (apply in_eqb; left; reflexivity). rewrite E.
      assert (E' : existsb (Nat.eqb m) seen = false) by (apply not_true_iff_false; rewrite in_eqb; exact N). rewrite E'.
      cbn [negb List.length]. pose proof (rest_le ms seen (m :: seen) (incl_tl m (incl_refl seen))). unfold rest in H. lia.
    - specialize (IH I). destruct (existsb (Nat.eqb k) seen) eqn:E.
      + apply in_eqb in E. assert (E' : existsb (Nat.eqb k) (m :: seen) = true) by (apply in_eqb; right; exact E).
        rewrite E'. exact IH.
      + cbn [negb]. destruct (negb (existsb (Nat.eqb k) (m :: seen))); cbn [List.length]; lia.
  Qed.

  Lemma execute_none : forall f stack cur m, execute_module (tr_body P f) stack cur m = None ->
    ~ In m (cur :: stack) /\ exists st', incl (cur :: stack) st' /\ ~ In m st' /\ incl st' (cur :: stack) /\ tr_body P f (m :: st') m = None.
  Proof.
    intros f stack cur m H. unfold execute_module in H.
    set (imp := if existsb (Nat.eqb cur) stack then stack else cur :: stack) in H.
    assert (J : incl (cur :: stack) imp /\ incl imp (cur :: stack)).
    { unfold imp. destruct (existsb (Nat.eqb cur) stack) eqn:E.
      - apply in_eqb in E. split; [|apply incl_tl, incl_refl]. intros x [<-|I]; assumption.
      - split; apply incl_refl. }
    destruct J as [J1 J2]. destruct (existsb (Nat.eqb m) imp) eqn:E; [discriminate|].
    destruct (tr_body P f (m :: imp) m) eqn:T; [discriminate|].
    assert (N : ~ In m imp) by (rewrite <- in_eqb, E; discriminate).
    split; [intros I; exact (N (J1 m I))|]. exists imp. auto.
  Qed.

  Lemma tr_body_total : exact_imports P -> forall ms, closed P ms -> forall f stack cur, In cur ms ->
    rest ms (cur :: stack) < f -> tr_body P f stack cur <> None.
  Proof.
    intros X ms CL. induction f as [|f IH]; intros stack cur M L; [lia|]. cbn [tr_body]. intros C.
    apply collect_none in C. destruct C as (t & I & E).
    assert (K : forall m, imported P t = Some m -> execute_module (tr_body P f) stack cur m = None -> False).
    { intros m Im H. apply execute_none in H. destruct H as (N & st' & J1 & N' & J2 & T). revert T.
      assert (Mm : In m ms) by (exact (CL cur t m M I Im)).
      apply IH; [exact Mm|].
      assert (rest ms (m :: m :: st') <= rest ms (m :: cur :: stack)) by (apply rest_le; intros x [<-|H]; [left; reflexivity|right; right; apply J1; exact H]).
      pose proof (rest_lt ms (cur :: stack) m Mm N). lia. }
    destruct t as [u e mt ds|s p|s xs|s]; cbn [tr_stmt] in E.
    - discriminate.
    - destruct (execute_module _ _ _ _) eqn:EX; [discriminate|]. exact (K _ eq_refl EX).
    - rewrite (find_exact X cur (TFrom s xs) s I) in E by (right; eauto).
      destruct (execute_module _ _ _ _) eqn:EX; [discriminate|]. exact (K _ eq_refl EX).
    - rewrite (find_exact X cur (TStar s) s I) in E by (left; reflexivity).
      destruct (execute_module _ _ _ _) eqn:EX; [discriminate|]. exact (K _ eq_refl EX).
  Qed.

  Theorem run_main_total : exact_imports P -> forall ms main, closed P ms -> In main ms ->
    exists f0, forall f, f0 <= f -> run_main P f main <> None.
  Proof.
    intros X ms main CL M. exists (S (List.length ms)). intros f L. unfold run_main.
    destruct (tr_body P f [] main) eqn:T; [discriminate|]. exfalso. revert T.
    apply (tr_body_total X ms CL); [exact M|]. unfold rest.
    assert (List.length (filter (fun m => negb (existsb (Nat.eqb m) [main])) ms) <= List.length ms).
    { clear. induction ms as [|m ms IH]; [reflexivity|]. cbn [filter]. destruct (negb _); cbn [List.length]; lia. }
    lia.
  Qed.

  (** ** Order of effects *)
  Lemma order_incl : forall T k l ts t l', order (body P) T k l ts t l' -> incl l l'.
  Proof.
    induction 1 as [k l|k l u e ms ds ts t l' _ IH|k l c m ts t l' _ _ _ IH|k l c m ts t1 l1 t2 l2 _ _ _ IH1 _ IH2].
    - apply incl_refl.
    - exact IH.
    - exact IH.
    - intros x I. apply IH2, IH1. right. exact I.
  Qed.

  (** The generated state agrees with the started modules. *)
  Definition agrees (st : vstate) (l : list nat) : Prop := forall m, defd st m = true <-> In m l.

  Definition only_names (c : vstmt) : Prop :=
    match c with VAssertNames _ _ | VAddName _ _ | VUnion _ _ | VAddPrefixed _ _ _ => True | _ => False end.
  Lemma names_keep : forall c st, only_names c -> defd (vexec c st) = defd st /\ trace (vexec c st) = trace st.
  Proof. intros [] st H; try destruct H; split; reflexivity. Qed.
  Lemma keep_all : forall l st, Forall only_names l -> defd (vexecs l st) = defd st /\ trace (vexecs l st) = trace st.
  Proof.
    intros l. induction l as [|c l IH]; intros st H; [split; reflexivity|]. inversion H; subst. rewrite vexecs_cons.
    destruct (IH (vexec c st)) as [-> ->]; [assumption|]. apply names_keep. assumption.
  Qed.

  (** The module that the translation takes for an import. *)
  Definition taken (k : nat) (c : tstmt) : option nat :=
    match c with
    | TStmt _ _ _ _ => None
    | TImport s _ => Some (modnum P s)
    | TFrom s _ | TStar s => find_import P k s
    end.

  Notation ord := (order (body P) taken).

  (** What executing an import does, given that of translated module bodies. *)
  Lemma execute_order : forall f stack cur m l,
    (forall stack cur l, tr_body P f stack cur = Some l -> forall st L, agrees st L -> incl (cur :: stack) L ->
       exists t L', ord cur L (body P cur) t L' /\ agrees (vexecs l st) L' /\ trace (vexecs l st) = trace st ++ t) ->
    execute_module (tr_body P f) stack cur m = Some l -> forall st L, agrees st L -> incl (cur :: stack) L ->
    (In m L /\ agrees (vexecs l st) L /\ trace (vexecs l st) = trace st) \/
    (~ In m L /\ exists t L', ord m (m :: L) (body P m) t L' /\ agrees (vexecs l st) L' /\ trace (vexecs l st) = trace st ++ t).
  Proof.
    intros f stack cur m l IH H st L AG INC. unfold execute_module in H.
    set (imp := if existsb (Nat.eqb cur) stack then stack else cur :: stack) in H.
    assert (J : incl imp (cur :: stack)).
    { unfold imp. destruct (existsb (Nat.eqb cur) stack); [apply incl_tl|]; apply incl_refl. }
    destruct (existsb (Nat.eqb m) imp) eqn:E.
    - injection H as <-. left. split; [apply INC, J, in_eqb; exact E|]. split; [exact AG|reflexivity].
    - destruct (tr_body P f (m :: imp) m) as [b|] eqn:T; [|discriminate]. injection H as <-.
      unfold vexecs. cbn [fold_left vexec]. destruct (defd st m) eqn:D.
      + left. split; [apply AG; exact D|]. split; [exact AG|reflexivity].
      + right. assert (N : ~ In m L) by (intros I; apply AG in I; congruence). split; [exact N|].
        set (st1 := {| defd := upd (defd st) m true; names := names st; trace := trace st; failed := failed st |}).
        destruct (IH (m :: imp) m b T st1 (m :: L)) as (t & L' & O & A' & T').
        * intros k. cbn [defd st1]. unfold upd. destruct (Nat.eqb_spec k m) as [->|K].
          -- split; [left; reflexivity|reflexivity].
          -- rewrite (AG k). split; [right; assumption|]. intros [<-|I]; [congruence|exact I].
        * intros k [<-|[<-|I]]; [left; reflexivity|left; reflexivity|right; apply INC, J; exact I].
        * exists t, L'. split; [exact O|]. split; [exact A'|exact T'].
  Qed.

  Lemma body_order : forall f stack cur l, tr_body P f stack cur = Some l ->
    forall st L, agrees st L -> incl (cur :: stack) L ->
    exists t L', ord cur L (body P cur) t L' /\ agrees (vexecs l st) L' /\ trace (vexecs l st) = trace st ++ t.
  Proof.
    induction f as [|f IH]; intros stack cur l H; [discriminate|]. cbn [tr_body] in H.
    assert (SUB : incl (body P cur) (body P cur)) by apply incl_refl.
    revert l H SUB. generalize (body P cur) at 1 2 4. intros ts. induction ts as [|c ts IHts]; intros l H SUB st L AG INC.
    - injection H as <-. exists [], L. split; [constructor|]. split; [exact AG|rewrite app_nil_r; reflexivity].
    - cbn [map collect] in H. destruct (tr_stmt P (tr_body P f) stack cur c) as [l1|] eqn:S; [|discriminate].
      destruct (collect _) as [l2|] eqn:C; [|discriminate]. injection H as <-. rewrite vexecs_app.
      assert (SUB' : incl ts (body P cur)) by (intros x I; apply SUB; right; exact I).
      assert (IMP : forall m la lb, taken cur c = Some m -> execute_module (tr_body P f) stack cur m = Some la -> l1 = la ++ lb ->
        Forall only_names lb ->
        exists t L', ord cur L (c :: ts) t L' /\ agrees (vexecs l2 (vexecs l1 st)) L' /\
          trace (vexecs l2 (vexecs l1 st)) = trace st ++ t).
      { intros m la lb Im EX -> FA. rewrite vexecs_app.
        destruct (keep_all lb (vexecs la st) FA) as [KD KT].
        destruct (execute_order f stack cur m la IH EX st L AG INC) as [(I & A1 & T1)|(N & t1 & L1 & O1 & A1 & T1)].
        - destruct (IHts l2 eq_refl SUB' (vexecs lb (vexecs la st)) L) as (t & L' & O & A' & T').
          + intros k. rewrite KD. apply A1.
          + exact INC.
          + exists t, L'. split; [eapply o_again; eassumption|]. split; [exact A'|]. rewrite T', KT, T1. reflexivity.
        - pose proof (order_incl _ _ _ _ _ _ O1) as INC1.
          destruct (IHts l2 eq_refl SUB' (vexecs lb (vexecs la st)) L1) as (t & L' & O & A' & T').
          + intros k. rewrite KD. apply A1.
          + intros k I. apply INC1. right. apply INC. exact I.
          + exists (t1 ++ t), L'. split; [eapply o_first; eassumption|]. split; [exact A'|].
            rewrite T', KT, T1, app_assoc. reflexivity. }
      destruct c as [u e mt ds|s p|s xs|s]; cbn [tr_stmt] in S.
      + injection S as <-. destruct (keep_all (map (fun x => VAddName cur (Single x)) (mt ++ ds)) (vexec (VEff e) (vexec (VAssertNames cur u) st))) as [KD KT].
        { apply Forall_forall. intros c I. apply in_map_iff in I. destruct I as (x & <- & _). exact Logic.I. }
        rewrite !vexecs_cons.
        destruct (IHts l2 eq_refl SUB' (vexecs (map (fun x => VAddName cur (Single x)) (mt ++ ds)) (vexec (VEff e) (vexec (VAssertNames cur u) st))) L) as (t & L' & O & A' & T').
        * intros k. rewrite KD. apply AG.
        * exact INC.
        * exists (e :: t), L'. split; [constructor; exact O|]. split; [exact A'|]. rewrite T', KT. cbn [vexec trace].
          rewrite <- app_assoc. reflexivity.
      + destruct (execute_module _ _ _ _) as [la|] eqn:EX; [|discriminate]. injection S as <-.
        apply (IMP (modnum P s) la [VAddPrefixed cur p (modnum P s)] eq_refl EX eq_refl). repeat constructor.
      + destruct (find_import P cur s) as [m|] eqn:FI; [|discriminate].
        destruct (execute_module _ _ _ _) as [la|] eqn:EX; [|discriminate]. injection S as <-.
        apply (IMP m la _ FI EX eq_refl). apply Forall_forall. intros c I. apply in_flat_map in I.
        destruct I as (x & _ & [<-|[<-|[]]]); exact Logic.I.
      + destruct (find_import P cur s) as [m|] eqn:FI; [|discriminate].
        destruct (execute_module _ _ _ _) as [la|] eqn:EX; [|discriminate]. injection S as <-.
        apply (IMP m la [VUnion cur m] FI EX eq_refl). repeat constructor.
  Qed.

  Lemma run_order : forall f main st, run_main P f main = Some st ->
    exists l, ord main [main] (body P main) (trace st) l.
  Proof.
    intros f main st H. unfold run_main in H. destruct (tr_body P f [] main) as [l|] eqn:T; [|discriminate].
    injection H as <-. destruct (body_order f [] main l T (initial main) [main]) as (t & L' & O & _ & E).
    - intros m. cbn [initial defd]. rewrite Nat.eqb_eq. cbn [In]. tauto.
    - intros m I. exact I.
    - exists L'. rewrite E. exact O.
  Qed.

  Lemma order_exact : exact_imports P -> forall k l ts t l', ord k l ts t l' -> incl ts (body P k) ->
    order (body P) (fun _ => imported P) k l ts t l'.
  Proof.
    intros X. assert (K : forall k c m, In c (body P k) -> taken k c = Some m -> imported P c = Some m).
    { intros k c m I H. destruct c as [u e mt ds|s p|s xs|s]; cbn [taken imported] in *; try assumption.
      - rewrite (find_exact X k _ s I) in H by (right; eauto). exact H.
      - rewrite (find_exact X k _ s I) in H by (left; reflexivity). exact H. }
    induction 1 as [k l|k l u e ms ds ts t l' _ IH|k l c m ts t l' T M _ IH|k l c m ts t1 l1 t2 l2 T M _ IH1 _ IH2]; intros S.
    - constructor.
    - constructor. apply IH. intros x I. apply S. right. exact I.
    - eapply o_again; [apply (K k); [apply S; left; reflexivity|exact T]|exact M|]. apply IH. intros x I. apply S. right. exact I.
    - eapply o_first; [apply (K k); [apply S; left; reflexivity|exact T]|exact M|apply IH1, incl_refl|].
      apply IH2. intros x I. apply S. right. exact I.
  Qed.

  Theorem main_order : exact_imports P -> forall f main st, run_main P f main = Some st -> python_order P main (trace st).
  Proof.
    intros X f main st H. destruct (run_order f main st H) as [l O]. exists l. apply (order_exact X); [exact O|apply incl_refl].
  Qed.

  Lemma effects_cons_other : forall k c ts m, taken k c = Some m -> effects (c :: ts) = effects ts.
  Proof. intros k [u e mt ds|s p|s xs|s] ts m H; [discriminate|reflexivity|reflexivity|reflexivity]. Qed.

  Lemma order_once_aux : distinct_effects P -> forall cur l ts t l', ord cur l ts t l' -> In cur l ->
    incl (effects ts) (effects (body P cur)) -> NoDup (effects ts) ->
    NoDup t /\ forall e, In e t -> In e (effects ts) \/ exists m, In m l' /\ ~ In m l /\ In e (effects (body P m)).
  Proof.
    intros [D1 D2] cur l ts t l' O.
    induction O as [cur l|cur l u e mt ds ts t l' O IH|cur l c m ts t l' Im I O IH|cur l c m ts t1 l1 t2 l2 Im N O1 IH1 O2 IH2];
      intros C S ND.
    - split; [constructor|]. intros e [].
    - cbn [effects flat_map app] in *. fold (effects ts) in *. inversion ND; subst.
      destruct (IH C) as [IH1 IH2].
      + intros x I. apply S. right. exact I.
      + assumption.
      + split.
        * constructor; [|exact IH1]. intros I. destruct (IH2 e I) as [J|(m & M1 & M2 & M3)]; [contradiction|].
          assert (m = cur) by (apply (D2 m cur e M3); apply S; left; reflexivity). subst. contradiction.
        * intros x [<-|I]; [left; left; reflexivity|]. destruct (IH2 x I) as [J|J]; [left; right; exact J|right; exact J].
    - rewrite (effects_cons_other cur c ts m Im) in *. destruct (IH C S ND) as [A B]. split; assumption.
    - rewrite (effects_cons_other cur c ts m Im) in *.
      pose proof (order_incl _ _ _ _ _ _ O1) as INC1. pose proof (order_incl _ _ _ _ _ _ O2) as INC2.
      destruct (IH1 (or_introl eq_refl) (incl_refl _) (D1 m)) as [A1 B1].
      destruct (IH2 (INC1 cur (or_intror C)) S ND) as [A2 B2].
      assert (W : forall e, In e t1 -> exists k, In k l1 /\ ~ In k l /\ In e (effects (body P k))).
      { intros e I. destruct (B1 e I) as [J|(k & K1 & K2 & K3)].
        - exists m. split; [apply INC1; left; reflexivity|]. split; [exact N|exact J].
        - exists k. split; [exact K1|]. split; [intros Q; apply K2; right; exact Q|exact K3]. }
      split.
      + clear - A1 A2 B2 W D2 C S. induction t1 as [|e t1 IHt]; [exact A2|]. cbn [app]. inversion A1; subst. constructor.
        * intros I. apply in_app_or in I. destruct I as [I|I]; [contradiction|].
          destruct (W e (or_introl eq_refl)) as (k & K1 & K2 & K3). destruct (B2 e I) as [J|(k' & J1 & J2 & J3)].
          -- apply K2. rewrite (D2 k cur e K3 (S _ J)). exact C.
          -- apply J2. rewrite (D2 k' k e J3 K3). exact K1.
        * apply IHt; [assumption|]. intros x I. apply W. right. exact I.
      + intros e I. apply in_app_or in I. destruct I as [I|I].
        * destruct (W e I) as (k & K1 & K2 & K3). right. exists k. split; [apply INC2; exact K1|]. split; assumption.
        * destruct (B2 e I) as [J|(k & K1 & K2 & K3)]; [left; exact J|]. right. exists k. split; [exact K1|].
          split; [|exact K3]. intros Q. apply K2, INC1. right. exact Q.
  Qed.

  Theorem main_once : distinct_effects P -> forall f main st, run_main P f main = Some st ->
    NoDup (trace st).
  Proof.
    intros D f main st H. destruct (run_order f main st H) as [l O].
    exact (proj1 (order_once_aux D _ _ _ _ _ O (or_introl eq_refl) (incl_refl _) (proj1 D main))).
  Qed.

  (** ** Defined names *)
  Lemma lookup_in : forall x d b, lookup x d = Some b -> In (x, b) d.
  Proof.
    intros x d b. induction d as [|[y c] d IH]; cbn [lookup]; [discriminate|].
    destruct (String.eqb_spec x y) as [->|N]; [intros [= ->]; left; reflexivity|]. intros H. right. exact (IH H).
  Qed.
  Lemma in_lookup : forall x d b, In (x, b) d -> exists b', lookup x d = Some b'.
  Proof.
    intros x d b. induction d as [|[y c] d IH]; intros I; [destruct I|]. cbn [lookup].
    destruct (String.eqb_spec x y) as [->|N]; [eauto|]. destruct I as [[= -> ->]|I]; [congruence|exact (IH I)].
  Qed.
  Lemma lookup_iff : forall x d, (exists b, lookup x d = Some b) <-> exists b, In (x, b) d.
  Proof. intros x d. split; intros [b H]; [exists b; apply lookup_in; exact H|eapply in_lookup; exact H]. Qed.

  Section Names.
    Context (X : exact_imports P) (r : string -> role) (G : one_role P r).

    Definition consistent (ps : pstate) : Prop := forall m x b, In (x, b) (ns ps m) ->
      public_name x = true /\ ((b = BVal /\ r x = RPlain) \/ exists k, b = BMod k /\ r x = RModule k).

    Record sim (st : vstate) (ps : pstate) : Prop := {
      sim_defd : agrees st (loaded ps);
      sim_trace : trace st = ptrace ps;
      sim_cons : consistent ps;
      sim_plain : forall m x, r x = RPlain -> (In (Single x) (names st m) <-> exists b, In (x, b) (ns ps m));
      sim_read : forall m g, In g (names st m) -> good_name r g -> readable ps m g }.

    Definition grows (ps ps' : pstate) : Prop := forall m e, In e (ns ps m) -> In e (ns ps' m).

    Lemma readable_mono : forall ps ps' g m, consistent ps -> consistent ps' -> grows ps ps' ->
      readable ps m g -> readable ps' m g.
    Proof.
      intros ps ps' g m C C' GR. revert m. induction g as [x|p _ g IH]; intros m H.
      - cbn [readable] in *. apply lookup_iff in H. destruct H as [b H]. apply lookup_iff. exists b. apply GR. exact H.
      - cbn [readable] in *. destruct p as [p|]; [|exact H]. destruct H as (k & H & R). apply lookup_in in H.
        exists k. split; [|apply IH; exact R]. pose proof (GR m _ H) as H'. destruct (in_lookup _ _ _ H') as [b B]. rewrite B. f_equal.
        apply lookup_in in B. destruct (C m p _ H) as [_ [[E _]|(k1 & E1 & R1)]]; [discriminate|].
        destruct (C' m p b B) as [_ [[-> R2]|(k2 & -> & R2)]]; [congruence|]. congruence.
    Qed.

    (** *** Single steps *)
    Lemma bind_ns : forall ps m x b k e, In e (ns (bind_name ps m x b) k) <-> ((k = m /\ e = (x, b)) \/ In e (ns ps k)).
    Proof.
      intros ps m x b k e. cbn [bind_name ns]. destruct (Nat.eqb_spec k m) as [->|N].
      - cbn [In]. split; [intros [<-|I]; tauto|intros [[_ ->]|I]; tauto].
      - split; [tauto|]. intros [[-> _]|I]; [congruence|exact I].
    Qed.

    Lemma upd_in : forall (f : nat -> list gname) m l k g, In g (upd f m (f m ++ l) k) <-> (In g (f k) \/ (k = m /\ In g l)).
    Proof.
      intros f m l k g. unfold upd. destruct (Nat.eqb_spec k m) as [->|N].
      - rewrite in_app_iff. tauto.
      - split; [tauto|]. intros [I|[-> _]]; [exact I|congruence].
    Qed.

    Lemma grows_bind : forall ps m x b, grows ps (bind_name ps m x b).
    Proof. intros ps m x b k e I. apply bind_ns. right. exact I. Qed.

    Lemma cons_bind : forall ps m x b, consistent ps -> public_name x = true ->
      ((b = BVal /\ r x = RPlain) \/ exists k, b = BMod k /\ r x = RModule k) -> consistent (bind_name ps m x b).
    Proof.
      intros ps m x b C PU R k y c I. apply bind_ns in I. destruct I as [[-> [= -> ->]]|I]; [split; assumption|].
      exact (C k y c I).
    Qed.

    (** A plain name is added and bound. *)
    Lemma sim_add : forall st ps m x, sim st ps -> r x = RPlain -> public_name x = true ->
      sim (vexec (VAddName m (Single x)) st) (bind_name ps m x BVal).
    Proof.
      intros st ps m x [S1 S2 S3 S4 S5] R PU.
      assert (C' : consistent (bind_name ps m x BVal)) by (apply cons_bind; auto).
      constructor; cbn [vexec names defd trace].
      - exact S1.
      - exact S2.
      - exact C'.
      - intros k y RY. rewrite upd_in, (S4 k y RY). split.
        + intros [[b I]|[-> [[= ->]|[]]]]; [exists b; apply bind_ns; right; exact I|]. exists BVal. apply bind_ns. left. split; reflexivity.
        + intros [b I]. apply bind_ns in I. destruct I as [[-> [= -> ->]]|I]; [right; split; [reflexivity|left; reflexivity]|].
          left. exists b. exact I.
      - intros k g I GN. apply upd_in in I. destruct I as [I|[-> [<-|[]]]].
        + apply (readable_mono ps); auto using grows_bind.
        + cbn [readable]. apply lookup_iff. exists BVal. apply bind_ns. left. split; reflexivity.
    Qed.

    (** The name of a method is added, nothing is bound. *)
    Lemma sim_method : forall st ps m x, sim st ps -> r x = RMethod -> sim (vexec (VAddName m (Single x)) st) ps.
    Proof.
      intros st ps m x [S1 S2 S3 S4 S5] R. constructor; cbn [vexec names defd trace]; try assumption.
      - intros k y RY. rewrite upd_in, (S4 k y RY). split; [|tauto]. intros [I|[_ [[= ->]|[]]]]; [exact I|congruence].
      - intros k g I GN. apply upd_in in I. destruct I as [I|[_ [<-|[]]]]; [exact (S5 k g I GN)|]. cbn in GN. congruence.
    Qed.

    Lemma sim_methods : forall xs st ps m, sim st ps -> (forall x, In x xs -> r x = RMethod) ->
      sim (vexecs (map (fun x => VAddName m (Single x)) xs) st) ps.
    Proof.
      induction xs as [|x xs IH]; intros st ps m S H; [exact S|]. cbn [map]. rewrite vexecs_cons. apply IH.
      - apply sim_method; [exact S|]. apply H. left. reflexivity.
      - intros y I. apply H. right. exact I.
    Qed.
    Lemma sim_adds : forall xs st ps m, sim st ps -> (forall x, In x xs -> r x = RPlain /\ public_name x = true) ->
      sim (vexecs (map (fun x => VAddName m (Single x)) xs) st) (bind_all ps m xs).
    Proof.
      induction xs as [|x xs IH]; intros st ps m S H; [exact S|]. cbn [map]. rewrite vexecs_cons. unfold bind_all. cbn [fold_left].
      apply IH.
      - apply sim_add; [exact S| |]; apply H; left; reflexivity.
      - intros y I. apply H. right. exact I.
    Qed.

    Lemma sim_prefixed : forall st ps m p k, sim st ps -> r p = RModule k -> public_name p = true ->
      sim (vexec (VAddPrefixed m p k) st) (bind_name ps m p (BMod k)).
    Proof.
      intros st ps m p k [S1 S2 S3 S4 S5] R PU.
      assert (C' : consistent (bind_name ps m p (BMod k))) by (apply cons_bind; eauto).
      constructor; cbn [vexec names defd trace].
      - exact S1.
      - exact S2.
      - exact C'.
      - intros j y RY. rewrite upd_in, (S4 j y RY). split.
        + intros [[b I]|[_ I]]; [exists b; apply bind_ns; right; exact I|]. apply in_map_iff in I. destruct I as (g & [=] & _).
        + intros [b I]. apply bind_ns in I. destruct I as [[_ [= -> _]]|I]; [congruence|]. left. exists b. exact I.
      - intros j g I GN. apply upd_in in I. destruct I as [I|[-> I]].
        + apply (readable_mono ps); auto using grows_bind.
        + apply in_map_iff in I. destruct I as (h & <- & I). destruct GN as [_ GN]. cbn [readable]. exists k. split.
          * cbn [bind_name ns]. rewrite Nat.eqb_refl. cbn [lookup]. rewrite String.eqb_refl. reflexivity.
          * apply (readable_mono ps); auto using grows_bind.
    Qed.

    Lemma star_ns : forall ps m m' k e, consistent ps ->
      (In e (ns (bind_star ps m m') k) <-> (In e (ns ps k) \/ (k = m /\ In e (ns ps m')))).
    Proof.
      intros ps m m' k [x b] C. cbn [bind_star ns]. destruct (Nat.eqb_spec k m) as [->|N].
      - rewrite in_app_iff, filter_In. cbn [fst]. split; [tauto|]. intros [I|[_ I]]; [tauto|].
        left. split; [exact I|]. exact (proj1 (C _ _ _ I)).
      - split; [tauto|]. intros [I|[-> _]]; [exact I|congruence].
    Qed.

    Lemma sim_star : forall st ps m m', sim st ps -> sim (vexec (VUnion m m') st) (bind_star ps m m').
    Proof.
      intros st ps m m' [S1 S2 S3 S4 S5].
      assert (C' : consistent (bind_star ps m m')).
      { intros k x b I. apply star_ns in I; [|exact S3]. destruct I as [I|[_ I]]; exact (S3 _ _ _ I). }
      assert (GR : grows ps (bind_star ps m m')) by (intros k e I; apply star_ns; [exact S3|left; exact I]).
      constructor; cbn [vexec names defd trace].
      - exact S1.
      - exact S2.
      - exact C'.
      - intros k y RY. rewrite upd_in, (S4 k y RY), (S4 m' y RY). split.
        + intros [[b I]|[-> [b I]]]; exists b; apply star_ns; auto.
        + intros [b I]. apply star_ns in I; [|exact S3]. destruct I as [I|[-> I]]; [left; eauto|right; split; [reflexivity|eauto]].
      - intros k g I GN. apply upd_in in I. destruct I as [I|[-> I]].
        + apply (readable_mono ps); auto.
        + pose proof (S5 m' g I GN) as R. destruct g as [x|[p|] g]; cbn [readable] in *.
          * apply lookup_iff in R. destruct R as [b R]. apply lookup_iff. exists b. apply star_ns; [exact S3|]. right. split; [reflexivity|exact R].
          * destruct R as (k & L & R). exists k. split; [|apply (readable_mono ps); auto].
            apply lookup_in in L. assert (J : In (p, BMod k) (ns (bind_star ps m m') m)) by (apply star_ns; auto).
            destruct (in_lookup _ _ _ J) as [b B]. rewrite B. f_equal. apply lookup_in in B.
            destruct (C' _ _ _ J) as [_ [[E _]|(k1 & E1 & R1)]]; [discriminate|].
            destruct (C' _ _ _ B) as [_ [[-> R2]|(k2 & -> & R2)]]; congruence.
          * exact R.
    Qed.

    Lemma sim_effect : forall st ps e, sim st ps -> sim (vexec (VEff e) st) (effect ps e).
    Proof.
      intros st ps e [S1 S2 S3 S4 S5]. constructor; cbn [vexec names defd trace effect ptrace]; try assumption.
      - rewrite S2. reflexivity.
      - intros m g I GN. apply (readable_mono ps); auto. intros k c J. exact J.
    Qed.

    Lemma sim_assert : forall st ps m gs, sim st ps -> sim (vexec (VAssertNames m gs) st) ps.
    Proof. intros st ps m gs [S1 S2 S3 S4 S5]. constructor; assumption. Qed.

    Lemma sim_start : forall st ps m, sim st ps -> sim (vexec (VSetDef m) st) (start ps m).
    Proof.
      intros st ps m [S1 S2 S3 S4 S5]. constructor; cbn [vexec names defd trace start loaded ptrace]; try assumption.
      - intros k. cbn [vexec defd]. unfold upd. destruct (Nat.eqb_spec k m) as [->|N].
        + split; [left; reflexivity|reflexivity].
        + rewrite (S1 k). split; [right; assumption|]. intros [->|I]; [congruence|exact I].
      - intros k g I GN. apply (readable_mono ps); auto. intros j c J. exact J.
    Qed.

    (** *** Failures stay *)
    Lemma failed_vexec : forall c st, failed st = true -> failed (vexec c st) = true.
    Proof.
      fix IH 1. intros c st F. destruct c as [m|m b|m|m gs|m g|m m'|m p m'|e]; cbn [vexec failed]; try assumption.
      - destruct (defd st m); [exact F|]. revert st F. induction b as [|c b IHb]; intros st F; [exact F|].
        cbn [fold_left]. apply IHb. apply IH. exact F.
      - rewrite F. reflexivity.
      - rewrite F. reflexivity.
    Qed.
    Lemma failed_vexecs : forall l st, failed st = true -> failed (vexecs l st) = true.
    Proof. induction l as [|c l IH]; intros st F; [exact F|]. rewrite vexecs_cons. apply IH, failed_vexec, F. Qed.
    Lemma not_failed : forall l st, failed (vexecs l st) = false -> failed st = false.
    Proof.
      intros l st F. destruct (failed st) eqn:E; [|reflexivity]. rewrite (failed_vexecs l st E) in F. discriminate.
    Qed.

    Lemma assert_ok : forall m gs st, failed (vexec (VAssertNames m gs) st) = false <->
      (failed st = false /\ forall g, In g gs -> In g (names st m)).
    Proof.
      intros m gs st. cbn [vexec failed]. rewrite orb_false_iff, negb_false_iff, forallb_forall. split; intros [F H].
      - split; [exact F|]. intros g I. apply in_names. exact (H g I).
      - split; [exact F|]. intros g I. apply in_names. exact (H g I).
    Qed.

    Lemma adds_failed : forall xs m st, failed (vexecs (map (fun x => VAddName m (Single x)) xs) st) = failed st.
    Proof. induction xs as [|x xs IH]; intros m st; [reflexivity|]. cbn [map]. rewrite vexecs_cons, IH. reflexivity. Qed.

    (** *** from-imports of names *)
    Lemma names_sound : forall xs st ps m k, sim st ps ->
      (forall y a, In (y, a) xs -> r y = RPlain /\ (let x := match a with Some x => x | None => y end in r x = RPlain /\ public_name x = true)) ->
      failed (vexecs (flat_map (import_name m k) xs) st) = false ->
      exists ps', pynames ps m k xs ps' /\ sim (vexecs (flat_map (import_name m k) xs) st) ps' /\ loaded ps' = loaded ps.
    Proof.
      induction xs as [|[y a] xs IH]; intros st ps m k S H F.
      - exists ps. split; [constructor|]. split; [exact S|reflexivity].
      - cbn [flat_map import_name app fst snd] in *. rewrite !vexecs_cons in *.
        destruct (H y a (or_introl eq_refl)) as [RY [RX PX]].
        pose proof (not_failed _ _ F) as F1. change (failed (vexec (VAssertNames k [Single y]) st) = false) in F1.
        apply assert_ok in F1. destruct F1 as [F0 F1].
        pose proof (proj1 (sim_plain _ _ S k y RY) (F1 _ (or_introl eq_refl))) as [b B].
        destruct (in_lookup _ _ _ B) as [b' B']. assert (b' = BVal).
        { apply lookup_in in B'. destruct (sim_cons _ _ S _ _ _ B') as [_ [[-> _]|(k' & _ & R')]]; [reflexivity|congruence]. }
        subst b'.
        destruct (IH (vexec (VAddName m (Single (match a with Some x => x | None => y end))) (vexec (VAssertNames k [Single y]) st))
          (bind_name ps m (match a with Some x => x | None => y end) BVal) m k) as (ps' & N & S' & L).
        + apply sim_add; [apply sim_assert; exact S|exact RX|exact PX].
        + intros y' a' I. apply H. right. exact I.
        + exact F.
        + exists ps'. split; [econstructor; eassumption|]. split; [exact S'|exact L].
    Qed.

    Lemma names_complete : forall xs st ps m k ps', sim st ps ->
      (forall y a, In (y, a) xs -> r y = RPlain /\ (let x := match a with Some x => x | None => y end in r x = RPlain /\ public_name x = true)) ->
      pynames ps m k xs ps' -> failed st = false ->
      failed (vexecs (flat_map (import_name m k) xs) st) = false /\ sim (vexecs (flat_map (import_name m k) xs) st) ps' /\ loaded ps' = loaded ps.
    Proof.
      induction xs as [|[y a] xs IH]; intros st ps m k ps' S H N F.
      - inversion N; subst. split; [exact F|]. split; [exact S|reflexivity].
      - inversion N as [|? ? ? ? ? b ? ? LK N']; subst. cbn [flat_map import_name app fst snd] in *. rewrite !vexecs_cons in *.
        destruct (H y a (or_introl eq_refl)) as [RY [RX PX]].
        apply lookup_in in LK. assert (b = BVal).
        { destruct (sim_cons _ _ S _ _ _ LK) as [_ [[-> _]|(k' & _ & R')]]; [reflexivity|congruence]. }
        subst b. assert (I1 : In (Single y) (names st k)) by (apply (sim_plain _ _ S k y RY); eauto).
        apply (IH _ (bind_name ps m (match a with Some x => x | None => y end) BVal) m k ps').
        + apply sim_add; [apply sim_assert; exact S|exact RX|exact PX].
        + intros y' a' I. apply H. right. exact I.
        + exact N'.
        + change (failed (vexec (VAssertNames k [Single y]) st) = false). apply assert_ok. split; [exact F|].
          intros g [<-|[]]. exact I1.
    Qed.

    (** *** Imports *)
    Definition body_sound f := forall stack cur l, tr_body P f stack cur = Some l -> forall st ps, sim st ps ->
      incl (cur :: stack) (loaded ps) -> failed (vexecs l st) = false ->
      exists ps', pyrun P ps cur (body P cur) ps' /\ sim (vexecs l st) ps' /\ incl (loaded ps) (loaded ps').

    Lemma import_sound : forall f stack cur m l, body_sound f -> execute_module (tr_body P f) stack cur m = Some l ->
      forall st ps, sim st ps -> incl (cur :: stack) (loaded ps) -> failed (vexecs l st) = false ->
      exists ps', pyload P ps m ps' /\ sim (vexecs l st) ps' /\ incl (loaded ps) (loaded ps').
    Proof.
      intros f stack cur m l IH H st ps S INC F. unfold execute_module in H.
      set (imp := if existsb (Nat.eqb cur) stack then stack else cur :: stack) in H.
      assert (J : incl imp (cur :: stack)).
      { unfold imp. destruct (existsb (Nat.eqb cur) stack); [apply incl_tl|]; apply incl_refl. }
      destruct (existsb (Nat.eqb m) imp) eqn:E.
      - injection H as <-. exists ps. split; [apply l_again, INC, J, in_eqb; exact E|]. split; [|apply incl_refl].
        destruct S. constructor; assumption.
      - destruct (tr_body P f (m :: imp) m) as [b|] eqn:T; [|discriminate]. injection H as <-.
        unfold vexecs in *. cbn [fold_left] in *. cbn [vexec] in *. destruct (defd st m) eqn:D.
        + exists ps. split; [apply l_again, (sim_defd _ _ S); exact D|]. split; [exact S|apply incl_refl].
        + assert (N : ~ In m (loaded ps)) by (intros I; apply (sim_defd _ _ S) in I; congruence).
          destruct (IH (m :: imp) m b T (vexec (VSetDef m) st) (start ps m)) as (ps' & R & S' & INC').
          * apply sim_start. exact S.
          * cbn [start loaded]. intros k [<-|[<-|I]]; [left; reflexivity|left; reflexivity|right; apply INC, J; exact I].
          * exact F.
          * exists ps'. split; [apply l_first; assumption|]. split; [exact S'|]. intros k I. apply INC'. right. exact I.
    Qed.

    Definition body_complete f := forall stack cur l, tr_body P f stack cur = Some l -> forall st ps ps', sim st ps ->
      incl (cur :: stack) (loaded ps) -> failed st = false -> pyrun P ps cur (body P cur) ps' ->
      failed (vexecs l st) = false /\ sim (vexecs l st) ps' /\ incl (loaded ps) (loaded ps').

    Lemma import_complete : forall f stack cur m l, body_complete f -> execute_module (tr_body P f) stack cur m = Some l ->
      forall st ps ps', sim st ps -> incl (cur :: stack) (loaded ps) -> failed st = false -> pyload P ps m ps' ->
      failed (vexecs l st) = false /\ sim (vexecs l st) ps' /\ incl (loaded ps) (loaded ps').
    Proof.
      intros f stack cur m l IH H st ps ps' S INC F L. unfold execute_module in H.
      set (imp := if existsb (Nat.eqb cur) stack then stack else cur :: stack) in H.
      assert (J : incl imp (cur :: stack)).
      { unfold imp. destruct (existsb (Nat.eqb cur) stack); [apply incl_tl|]; apply incl_refl. }
      destruct (existsb (Nat.eqb m) imp) eqn:E.
      - injection H as <-. assert (I : In m (loaded ps)) by (apply INC, J, in_eqb; exact E).
        inversion L; subst; [|contradiction]. unfold vexecs. cbn [fold_left vexec failed].
        pose proof (proj2 (sim_defd _ _ S m) I) as D. rewrite D, F. split; [reflexivity|]. split; [|apply incl_refl].
        destruct S. constructor; assumption.
      - destruct (tr_body P f (m :: imp) m) as [b|] eqn:T; [|discriminate]. injection H as <-.
        unfold vexecs in *. cbn [fold_left] in *. cbn [vexec] in *. destruct (defd st m) eqn:D.
        + apply (sim_defd _ _ S) in D. inversion L; subst; [|contradiction]. split; [exact F|]. split; [exact S|apply incl_refl].
        + assert (N : ~ In m (loaded ps)) by (intros I; apply (sim_defd _ _ S) in I; congruence).
          inversion L as [? ? C1|? ? ? C1 R]; subst; [contradiction|].
          destruct (IH (m :: imp) m b T (vexec (VSetDef m) st) (start ps m) ps') as (F' & S' & INC').
          * apply sim_start. exact S.
          * cbn [start loaded]. intros k [<-|[<-|I]]; [left; reflexivity|left; reflexivity|right; apply INC, J; exact I].
          * exact F.
          * exact R.
          * split; [exact F'|]. split; [exact S'|]. intros k I. apply INC'. right. exact I.
    Qed.

    Lemma bind_all_loaded : forall xs ps m, loaded (bind_all ps m xs) = loaded ps.
    Proof. induction xs as [|x xs IH]; intros ps m; [reflexivity|]. unfold bind_all in *. cbn [fold_left]. rewrite IH. reflexivity. Qed.

    Lemma sound : forall f, body_sound f.
    Proof.
      induction f as [|f IH]; intros stack cur l H; [discriminate|]. cbn [tr_body] in H.
      assert (SUB : incl (body P cur) (body P cur)) by apply incl_refl.
      revert l H SUB. generalize (body P cur) at 1 2 4. intros ts. induction ts as [|c ts IHts]; intros l H SUB st ps S INC F.
      - injection H as <-. exists ps. split; [constructor|]. split; [exact S|apply incl_refl].
      - cbn [map collect] in H. destruct (tr_stmt P (tr_body P f) stack cur c) as [l1|] eqn:T; [|discriminate].
        destruct (collect _) as [l2|] eqn:C; [|discriminate]. injection H as <-. rewrite vexecs_app in *.
        assert (SUB' : incl ts (body P cur)) by (intros x I; apply SUB; right; exact I).
        pose proof (G cur c (SUB c (or_introl eq_refl))) as GS. pose proof (not_failed _ _ F) as F1.
        assert (IMP : forall m la lb (k : pstate -> pstate -> Prop), execute_module (tr_body P f) stack cur m = Some la -> l1 = la ++ lb ->
          (forall st1 ps1, sim st1 ps1 -> failed (vexecs lb st1) = false -> exists ps2, k ps1 ps2 /\ sim (vexecs lb st1) ps2 /\ loaded ps2 = loaded ps1) ->
          (forall ps1 ps2 ps3, pyload P ps m ps1 -> k ps1 ps2 -> pyrun P ps2 cur ts ps3 -> pyrun P ps cur (c :: ts) ps3) ->
          exists ps', pyrun P ps cur (c :: ts) ps' /\ sim (vexecs l2 (vexecs l1 st)) ps' /\ incl (loaded ps) (loaded ps')).
        { intros m la lb k EX -> K R. rewrite vexecs_app in *.
          destruct (import_sound f stack cur m la IH EX st ps S INC (not_failed _ _ F1)) as (ps1 & L1 & S1 & INC1).
          destruct (K _ _ S1 F1) as (ps2 & K2 & S2 & E2).
          destruct (IHts l2 eq_refl SUB' (vexecs lb (vexecs la st)) ps2 S2) as (ps3 & R3 & S3 & INC3).
          - rewrite E2. intros x I. apply INC1, INC, I.
          - exact F.
          - exists ps3. split; [eapply R; eassumption|]. split; [exact S3|]. intros x I. apply INC3. rewrite E2. apply INC1, I. }
        destruct c as [u e mt ds|s p|s xs|s]; cbn [tr_stmt good_stmt] in *.
        + injection T as <-. destruct GS as (G1 & G2 & G3). rewrite map_app in *. rewrite !vexecs_cons, vexecs_app in *.
          pose proof (not_failed _ _ F1) as F2. pose proof (not_failed _ _ F2) as F3.
          change (failed (vexec (VAssertNames cur u) st) = false) in F3. apply assert_ok in F3. destruct F3 as [F3 F4].
          set (st1 := vexecs (map (fun x => VAddName cur (Single x)) mt) (vexec (VEff e) (vexec (VAssertNames cur u) st))) in *.
          assert (S1 : sim st1 (effect ps e)) by (apply sim_methods; [apply sim_effect, sim_assert; exact S|exact G2]).
          pose proof (sim_adds ds st1 _ cur S1 G3) as S2.
          destruct (IHts l2 eq_refl SUB' _ _ S2) as (ps3 & R3 & S3 & INC3).
          * rewrite bind_all_loaded. exact INC.
          * exact F.
          * exists ps3. split; [|split; [exact S3|intros x I; apply INC3; rewrite bind_all_loaded; exact I]].
            constructor; [|exact R3]. apply Forall_forall. intros g I. apply (sim_read _ _ S cur g (F4 g I)).
            exact (proj1 (Forall_forall _ _) G1 g I).
        + destruct (execute_module _ _ _ _) as [la|] eqn:EX; [|discriminate]. injection T as <-. destruct GS as [G1 G2].
          apply (IMP (modnum P s) la _ (fun a b => b = bind_name a cur p (BMod (modnum P s))) EX eq_refl).
          * intros st1 ps1 S1 _. eexists. split; [reflexivity|]. split; [apply sim_prefixed; assumption|reflexivity].
          * intros ps1 ps2 ps3 L1 -> R1. econstructor; eassumption.
        + rewrite (find_exact X cur (TFrom s xs) s) in T by (try (apply SUB; left; reflexivity); right; eauto).
          destruct (execute_module _ _ _ _) as [la|] eqn:EX; [|discriminate]. injection T as <-.
          apply (IMP (modnum P s) la _ (fun a b => pynames a cur (modnum P s) xs b) EX eq_refl).
          * intros st1 ps1 S1 F2. exact (names_sound xs st1 ps1 cur (modnum P s) S1 GS F2).
          * intros ps1 ps2 ps3 L1 N1 R1. econstructor; eassumption.
        + rewrite (find_exact X cur (TStar s) s) in T by (try (apply SUB; left; reflexivity); left; reflexivity).
          destruct (execute_module _ _ _ _) as [la|] eqn:EX; [|discriminate]. injection T as <-.
          apply (IMP (modnum P s) la _ (fun a b => b = bind_star a cur (modnum P s)) EX eq_refl).
          * intros st1 ps1 S1 _. eexists. split; [reflexivity|]. split; [apply sim_star; assumption|reflexivity].
          * intros ps1 ps2 ps3 L1 -> R1. econstructor; eassumption.
    Qed.

    Lemma complete : no_attributes P -> forall f, body_complete f.
    Proof.
      intros NA. induction f as [|f IH]; intros stack cur l H; [discriminate|]. cbn [tr_body] in H.
      assert (SUB : incl (body P cur) (body P cur)) by apply incl_refl.
      revert l H SUB. generalize (body P cur) at 1 2 4. intros ts. induction ts as [|c ts IHts]; intros l H SUB st ps ps' S INC F R.
      - injection H as <-. inversion R; subst. split; [exact F|]. split; [exact S|apply incl_refl].
      - cbn [map collect] in H. destruct (tr_stmt P (tr_body P f) stack cur c) as [l1|] eqn:T; [|discriminate].
        destruct (collect _) as [l2|] eqn:C; [|discriminate]. injection H as <-. rewrite vexecs_app in *.
        assert (SUB' : incl ts (body P cur)) by (intros x I; apply SUB; right; exact I).
        pose proof (G cur c (SUB c (or_introl eq_refl))) as GS.
        assert (IMP : forall m la lb ps1 ps2, execute_module (tr_body P f) stack cur m = Some la -> l1 = la ++ lb ->
          pyload P ps m ps1 ->
          (forall st1, sim st1 ps1 -> failed st1 = false -> failed (vexecs lb st1) = false /\ sim (vexecs lb st1) ps2 /\ loaded ps2 = loaded ps1) ->
          pyrun P ps2 cur ts ps' ->
          failed (vexecs l2 (vexecs l1 st)) = false /\ sim (vexecs l2 (vexecs l1 st)) ps' /\ incl (loaded ps) (loaded ps')).
        { intros m la lb ps1 ps2 EX -> L1 K R2. rewrite vexecs_app.
          destruct (import_complete f stack cur m la IH EX st ps ps1 S INC F L1) as (F1 & S1 & INC1).
          destruct (K _ S1 F1) as (F2 & S2 & E2).
          destruct (IHts l2 eq_refl SUB' (vexecs lb (vexecs la st)) ps2 ps' S2) as (F3 & S3 & INC3).
          - rewrite E2. intros x I. apply INC1, INC, I.
          - exact F2.
          - exact R2.
          - split; [exact F3|]. split; [exact S3|]. intros x I. apply INC3. rewrite E2. apply INC1, I. }
        destruct c as [u e mt ds|s p|s xs|s]; cbn [tr_stmt good_stmt] in *.
        + injection T as <-. destruct GS as (G1 & G2 & G3). rewrite map_app in *. rewrite !vexecs_cons, vexecs_app in *.
          inversion R as [|? ? ? ? ? ? ? ? U R1| | |]; subst.
          set (st1 := vexecs (map (fun x => VAddName cur (Single x)) mt) (vexec (VEff e) (vexec (VAssertNames cur u) st))) in *.
          assert (S1 : sim st1 (effect ps e)) by (apply sim_methods; [apply sim_effect, sim_assert; exact S|exact G2]).
          pose proof (sim_adds ds st1 _ cur S1 G3) as S2.
          destruct (IHts l2 eq_refl SUB' _ _ ps' S2) as (F3 & S3 & INC3).
          * rewrite bind_all_loaded. exact INC.
          * rewrite adds_failed. unfold st1. rewrite adds_failed.
            change (failed (vexec (VAssertNames cur u) st) = false). apply assert_ok. split; [exact F|].
            intros g I. destruct (NA cur u e mt ds g (SUB _ (or_introl eq_refl)) I) as [x ->].
            pose proof (proj1 (Forall_forall _ _) U _ I) as RD. cbn [readable] in RD. apply lookup_iff in RD.
            apply (sim_plain _ _ S); [|exact RD]. exact (proj1 (Forall_forall _ _) G1 _ I).
          * exact R1.
          * split; [exact F3|]. split; [exact S3|]. intros x I. apply INC3. rewrite bind_all_loaded. exact I.
        + destruct (execute_module _ _ _ _) as [la|] eqn:EX; [|discriminate]. injection T as <-. destruct GS as [G1 G2].
          inversion R as [| |? ? ? ? ? ps1 ? L1 R1| |]; subst.
          apply (IMP (modnum P s) la _ ps1 (bind_name ps1 cur p (BMod (modnum P s))) EX eq_refl L1); [|exact R1].
          intros st1 S1 F1. split; [exact F1|]. split; [apply sim_prefixed; assumption|reflexivity].
        + rewrite (find_exact X cur (TFrom s xs) s) in T by (try (apply SUB; left; reflexivity); right; eauto).
          destruct (execute_module _ _ _ _) as [la|] eqn:EX; [|discriminate]. injection T as <-.
          inversion R as [| | |? ? ? ? ? ps1 ps2 ? L1 N1 R1|]; subst.
          apply (IMP (modnum P s) la _ ps1 ps2 EX eq_refl L1); [|exact R1].
          intros st1 S1 F1. exact (names_complete xs st1 ps1 cur (modnum P s) ps2 S1 GS N1 F1).
        + rewrite (find_exact X cur (TStar s) s) in T by (try (apply SUB; left; reflexivity); left; reflexivity).
          destruct (execute_module _ _ _ _) as [la|] eqn:EX; [|discriminate]. injection T as <-.
          inversion R as [| | | |? ? ? ? ps1 ? L1 R1]; subst.
          apply (IMP (modnum P s) la _ ps1 (bind_star ps1 cur (modnum P s)) EX eq_refl L1); [|exact R1].
          intros st1 S1 F1. split; [exact F1|]. split; [apply sim_star; assumption|reflexivity].
    Qed.

    Lemma sim_initial : forall main, sim (initial main) (py_initial main).
    Proof.
      intros main. constructor; cbn [initial py_initial names defd trace loaded ns ptrace].
      - intros m. cbn [initial defd]. rewrite Nat.eqb_eq. cbn [In]. tauto.
      - reflexivity.
      - intros m x b [].
      - intros m x _. split; [intros []|intros [b []]].
      - intros m g [].
    Qed.

    Theorem main_sound : forall f main st, run_main P f main = Some st -> failed st = false ->
      exists ps, pyrun P (py_initial main) main (body P main) ps /\ ptrace ps = trace st.
    Proof.
      intros f main st H F. unfold run_main in H. destruct (tr_body P f [] main) as [l|] eqn:T; [|discriminate].
      injection H as <-. destruct (sound f [] main l T (initial main) (py_initial main) (sim_initial main)) as (ps & R & S & _).
      - intros m I. exact I.
      - exact F.
      - exists ps. split; [exact R|]. symmetry. exact (sim_trace _ _ S).
    Qed.

    Theorem main_complete : no_attributes P -> forall f main st ps, run_main P f main = Some st ->
      pyrun P (py_initial main) main (body P main) ps -> failed st = false /\ trace st = ptrace ps.
    Proof.
      intros NA f main st ps H R. unfold run_main in H. destruct (tr_body P f [] main) as [l|] eqn:T; [|discriminate].
      injection H as <-. destruct (complete NA f [] main l T (initial main) (py_initial main) ps (sim_initial main)) as (F & S & _).
      - intros m I. exact I.
      - reflexivity.
      - exact R.
      - split; [exact F|]. exact (sim_trace _ _ S).
    Qed.
  End Names.
End Prog.
