From Coq Require Import List Bool Arith ZArith QArith Lqa Lia.
From Verif Require Import ThrModel ThrSpec.
Import ListNotations.
Local Open Scope nat_scope.

(** ** Equality tests *)

Lemma val_eqb_eq a b : val_eqb a b = true <-> a = b.
Proof.
  destruct a, b; cbn [val_eqb]; split; intros H; try discriminate; try congruence.
  - apply Z.eqb_eq in H. congruence.
  - inversion H. apply Z.eqb_refl.
  - apply andb_true_iff in H as (H1 & H2). apply Nat.eqb_eq in H1, H2. congruence.
  - inversion H. rewrite !Nat.eqb_refl. reflexivity.
  - apply Nat.eqb_eq in H. congruence.
  - inversion H. apply Nat.eqb_refl.
Qed.

Lemma res_eqb_eq a b : res_eqb a b = true <-> a = b.
Proof.
  destruct a, b; cbn [res_eqb]; split; intros H; try discriminate;
    try (apply andb_true_iff in H as (H1 & H2)); 
    repeat match goal with
    | H : val_eqb _ _ = true |- _ => apply val_eqb_eq in H
    | H : (_ =? _) = true |- _ => apply Nat.eqb_eq in H
    end; try congruence;
    inversion H; subst; rewrite ?Nat.eqb_refl, ?(proj2 (val_eqb_eq _ _) eq_refl); reflexivity.
Qed.

Lemma res_eqb_refl r : res_eqb r r = true.
Proof. apply res_eqb_eq. reflexivity. Qed.

Lemma res_eqb_neq a b : a <> b -> res_eqb a b = false.
Proof. intros N. destruct (res_eqb a b) eqn:E; [apply res_eqb_eq in E; contradiction|reflexivity]. Qed.

Lemma qle_bool a b : Qle_bool a b = true <-> (a <= b)%Q.
Proof. apply Qle_bool_iff. Qed.

(** ** The table of threads *)

Lemma update_length l t e : length (update l t e) = length l.
Proof. revert t. induction l as [|x l IH]; intros [|t]; cbn [update length]; auto. Qed.

Lemma nth_update l t e j d : t < length l -> nth j (update l t e) d = if t =? j then e else nth j l d.
Proof.
  revert t j. induction l as [|x l IH]; intros t j L; [cbn [length] in L; lia|].
  destruct t as [|t]; destruct j as [|j]; cbn [update nth]; try reflexivity.
  cbn [length] in L. rewrite IH by lia. reflexivity.
Qed.

Lemma total_update l t e r d : t < length l ->
  (total_of (update l t e) r == total_of l r - e_perm (nth t l d) r + e_perm e r)%Q.
Proof.
  revert t. induction l as [|x l IH]; intros t L; [cbn [length] in L; lia|].
  destruct t as [|t]; cbn [update nth total_of].
  - lra.
  - cbn [length] in L. rewrite IH by lia. lra.
Qed.

Lemma total_app l l' r : (total_of (l ++ l') r == total_of l r + total_of l' r)%Q.
Proof. induction l as [|x l IH]; cbn [app total_of]; [lra|]. rewrite IH. lra. Qed.

Lemma total_nonneg l r : (forall e, In e l -> 0 <= e_perm e r)%Q -> (0 <= total_of l r)%Q.
Proof.
  induction l as [|x l IH]; intros H; cbn [total_of]; [lra|].
  pose proof (H x (or_introl eq_refl)). pose proof (IH (fun e I => H e (or_intror I))). lra.
Qed.

Lemma total_ge l r t d : (forall e, In e l -> 0 <= e_perm e r)%Q -> t < length l ->
  (e_perm (nth t l d) r <= total_of l r)%Q.
Proof.
  revert t. induction l as [|x l IH]; intros t H L; [cbn [length] in L; lia|].
  pose proof (H x (or_introl eq_refl)) as Hx.
  pose proof (total_nonneg l r (fun e I => H e (or_intror I))) as Hl.
  destruct t as [|t]; cbn [nth total_of]; [lra|].
  cbn [length] in L. pose proof (IH t (fun e I => H e (or_intror I)) ltac:(lia)). lra.
Qed.

Lemma total_ge2 l r i j d : (forall e, In e l -> 0 <= e_perm e r)%Q -> i < length l -> j < length l -> i <> j ->
  (e_perm (nth i l d) r + e_perm (nth j l d) r <= total_of l r)%Q.
Proof.
  revert i j. induction l as [|x l IH]; intros i j H Li Lj N; [cbn [length] in Li; lia|].
  pose proof (fun e I => H e (or_intror I)) as Hl. cbn [length] in Li, Lj.
  destruct i as [|i], j as [|j]; cbn [nth total_of]; try lia.
  - pose proof (total_ge l r j d Hl ltac:(lia)). lra.
  - pose proof (total_ge l r i d Hl ltac:(lia)). lra.
  - pose proof (IH i j Hl ltac:(lia) ltac:(lia) ltac:(lia)). pose proof (H x (or_introl eq_refl)). lra.
Qed.

Lemma thread_set st t e j : t < length (table st) ->
  thread (set_thread st t e) j = if t =? j then e else thread st j.
Proof. intros L. unfold thread, set_thread. cbn [table]. apply nth_update. exact L. Qed.

Lemma thread_set_perm st t p j : t < length (table st) ->
  thread (set_perm st t p) j =
  if t =? j then En (e_meth (thread st t)) (e_args (thread st t)) (e_olds (thread st t)) (e_status (thread st t)) p
  else thread st j.
Proof. intros L. unfold set_perm. apply thread_set. exact L. Qed.

Lemma set_perm_length st t p : length (table (set_perm st t p)) = length (table st).
Proof. apply update_length. Qed.

Lemma set_thread_length st t p : length (table (set_thread st t p)) = length (table st).
Proof. apply update_length. Qed.

Lemma total_set_thread st t e r : t < length (table st) ->
  (total_of (table (set_thread st t e)) r == total_of (table st) r - e_perm (thread st t) r + e_perm e r)%Q.
Proof. intros L. apply total_update. exact L. Qed.

Lemma total_set_perm st t p r : t < length (table st) ->
  (total_of (table (set_perm st t p)) r == total_of (table st) r - e_perm (thread st t) r + p r)%Q.
Proof. intros L. unfold set_perm. rewrite (total_set_thread st t _ r L). reflexivity. Qed.

(** ** Evaluation does not look at permissions of other threads *)

(** Two states agree on what contracts of thread t can see. *)
Definition same_thread (st st' : state) (t : nat) : Prop :=
  e_meth (thread st t) = e_meth (thread st' t) /\ e_args (thread st t) = e_args (thread st' t) /\
  e_olds (thread st t) = e_olds (thread st' t).

Lemma tr_acc_res st st' t f a q :
  e_args (thread st t) = e_args (thread st' t) ->
  forall r x, In (VAcc r x) (tr_acc t f a q) -> eval_res st r = eval_res st' r.
Proof.
  intros E r x I. destruct a; cbn in I; repeat destruct I as [I|I]; try contradiction; inversion I; subst;
    cbn [eval_res eval]; rewrite ?E; reflexivity.
Qed.

Lemma amounts_ext st st' l r :
  (forall r' x, In (VAcc r' x) l -> eval_res st r' = eval_res st' r') ->
  amounts st l r = amounts st' l r.
Proof.
  induction l as [|[r' x|b] l IH]; intros H; cbn [amounts]; [reflexivity| |].
  - rewrite (H r' x (or_introl eq_refl)), IH; [reflexivity|]. intros r2 x2 I. exact (H r2 x2 (or_intror I)).
  - apply IH. intros r2 x2 I. exact (H r2 x2 (or_intror I)).
Qed.

Lemma in_tr_asn v t f l : In v (tr_asn t f l) <-> exists a, In a l /\ In v (tr_atom t f a).
Proof. apply in_flat_map. Qed.

Lemma amounts_asn st st' t l r :
  e_args (thread st t) = e_args (thread st' t) ->
  amounts st (tr_asn t None l) r = amounts st' (tr_asn t None l) r.
Proof.
  intros E. apply amounts_ext. intros r' x I. apply in_tr_asn in I as (a & _ & I).
  destruct a as [a q|a b]; cbn [tr_atom] in I.
  - exact (tr_acc_res st st' t None a q E r' x I).
  - destruct I as [I|[]]. discriminate.
Qed.

Lemma amounts_app st l l' r : (amounts st (l ++ l') r == amounts st l r + amounts st l' r)%Q.
Proof.
  induction l as [|[r' x|b] l IH]; cbn [app amounts]; [lra| |exact IH]. rewrite IH. lra.
Qed.

(** ** Exhaling and inhaling *)

Section Fixed.
  Variables (sub : nat -> nat -> bool) (P : nat -> method).

  Definition literal (v : vassert) : Prop := match v with VAcc _ (PLit _) => True | VAcc _ _ => False | VB _ => True end.

  Lemma literal_asn t l v : In v (tr_asn t None l) -> literal v.
  Proof.
    intros I. apply in_tr_asn in I as ([a q|a b] & _ & I); cbn [tr_atom] in I.
    - destruct a; cbn in I; repeat destruct I as [I|I]; try contradiction; subst; exact I0 || exact Logic.I.
    - destruct I as [<-|[]]. exact Logic.I.
  Qed.

  (** Facts in contracts do not mention permissions. *)
  Definition plain_fact (b : vbool) : Prop := match b with BSame _ _ | BJoinable _ | BType _ _ => True | _ => False end.

  Lemma truth_plain st p p' b : plain_fact b -> truth sub P st p b = truth sub P st p' b.
  Proof. destruct b; cbn [plain_fact]; intros []; reflexivity. Qed.

  Lemma fact_asn t f l b : In (VB b) (tr_asn t f l) -> plain_fact b.
  Proof.
    intros I. apply in_tr_asn in I as ([a q|a a'] & _ & I); cbn [tr_atom] in I.
    - destruct a; cbn in I; repeat destruct I as [I|I]; try contradiction; inversion I; exact Logic.I.
    - destruct I as [I|[]]. inversion I. exact Logic.I.
  Qed.

  Lemma minus_le p r q r' : (0 <= q)%Q -> (minus p r q r' <= p r')%Q.
  Proof. intros Q0. unfold minus. destruct (res_eqb r r'); lra. Qed.

  Lemma exhale_spec st l : Forall literal l -> forall p p',
    exhale sub P st p l = Some p' ->
    (forall r, p' r == p r - amounts st l r)%Q /\
    (forall r, 0 <= amounts st l r)%Q /\
    ((forall r, 0 <= p r)%Q -> forall r, 0 <= p' r)%Q /\
    (forall r q, In (VAcc r (PLit q)) l -> 0 <= q)%Q /\
    (forall b, In (VB b) l -> plain_fact b -> truth sub P st p b = true).
  Proof.
    induction l as [|[r x|b] l IH]; intros F p p' E; cbn [exhale] in E.
    - inversion E; subst. cbn [amounts]. repeat split; intros; try lra; try contradiction; auto.
    - inversion F as [|? ? Fx Fl]; subst. destruct x as [q|x y|t]; try contradiction. cbn [eval_perm] in E.
      destruct (Qle_bool 0 q) eqn:Q0; [|discriminate]. destruct (Qle_bool q (p (eval_res st r))) eqn:Q1; [|discriminate].
      cbn [andb] in E. apply qle_bool in Q0, Q1.
      destruct (IH Fl _ _ E) as (H1 & H2 & H3 & H4 & H5). cbn [amounts eval_perm].
      split; [|split; [|split; [|split]]].
      + intros r'. rewrite (H1 r'). unfold minus. destruct (res_eqb (eval_res st r) r') eqn:R; lra.
      + intros r'. specialize (H2 r'). destruct (res_eqb (eval_res st r) r'); lra.
      + intros PP. apply H3. intros r'. unfold minus. destruct (res_eqb (eval_res st r) r') eqn:R; [|apply PP].
        apply res_eqb_eq in R. subst r'. lra.
      + intros r' q' [I|I]; [inversion I; subst; exact Q0|exact (H4 r' q' I)].
      + intros b [I|I] PF; [discriminate|]. rewrite (truth_plain st p (minus p (eval_res st r) q) b PF). exact (H5 b I PF).
    - inversion F as [|? ? Fx Fl]; subst. destruct (truth sub P st p b) eqn:T; [|discriminate].
      destruct (IH Fl _ _ E) as (H1 & H2 & H3 & H4 & H5). cbn [amounts].
      split; [exact H1|]. split; [exact H2|]. split; [exact H3|]. split.
      + intros r' q' [I|I]; [discriminate|exact (H4 r' q' I)].
      + intros b' [I|I] PF; [inversion I; subst; exact T|exact (H5 b' I PF)].
  Qed.

  Lemma exhale_asn st t l p p' :
    exhale sub P st p (tr_asn t None l) = Some p' ->
    (forall r, p' r == p r - amounts st (tr_asn t None l) r)%Q /\
    (forall r, 0 <= amounts st (tr_asn t None l) r)%Q /\
    ((forall r, 0 <= p r)%Q -> forall r, 0 <= p' r)%Q /\
    (forall r q, In (VAcc r (PLit q)) (tr_asn t None l) -> 0 <= q)%Q /\
    (forall b, In (VB b) (tr_asn t None l) -> truth sub P st p b = true).
  Proof.
    intros E. destruct (exhale_spec st (tr_asn t None l) (proj2 (Forall_forall _ _) (literal_asn t l)) p p' E)
      as (H1 & H2 & H3 & H4 & H5). repeat split; auto. intros b I. exact (H5 b I (fact_asn t None l b I)).
  Qed.

  (** Inhaling facts only. *)
  Lemma inhale_facts st l : (forall v, In v l -> exists b, v = VB b) -> forall p,
    fst (inhale sub P st p l) = p /\
    (snd (inhale sub P st p l) = true <-> forall b, In (VB b) l -> truth sub P st p b = true).
  Proof.
    induction l as [|v l IH]; intros F p; cbn [inhale].
    - split; [reflexivity|]. split; [intros _ b []|reflexivity].
    - destruct (F v (or_introl eq_refl)) as (b & ->).
      destruct (IH (fun v I => F v (or_intror I)) p) as (E1 & E2).
      destruct (inhale sub P st p l) as (p' & ok). cbn [fst snd] in *. split; [exact E1|].
      rewrite andb_true_iff, E2. split.
      + intros (T & R) b' [I|I]; [inversion I; subst; exact T|exact (R b' I)].
      + intros R. split; [exact (R b (or_introl eq_refl))|intros b' I; exact (R b' (or_intror I))].
  Qed.

  (** Inhaling a postcondition, scaled with the permission held to ThreadPost. *)
  Lemma inhale_post st t l : Forall shareable l -> forall p,
    let r := inhale sub P st p (tr_asn t (Some (PCur t)) l) in
    (forall x, fst r x == p x + p (RThreadPost (VThread t)) * amounts st (tr_asn t None l) x)%Q /\
    ((forall b, In (VB b) (tr_asn t None l) -> truth sub P st p b = true) -> snd r = true).
  Proof.
    induction l as [|a l IH]; intros F p.
    - cbn. split; [intros x; ring|reflexivity].
    - inversion F as [|? ? Fa Fl]; subst. destruct a as [a q|a b].
      + assert (X : forall w, (tr_acc t (Some (PCur t)) a q = [VAcc w (scaled (Some (PCur t)) q)]) ->
                    tr_acc t None a q = [VAcc w (PLit q)] ->
                    (forall e, eval_res st w <> RThreadPost e) ->
                    let r := inhale sub P st p (tr_asn t (Some (PCur t)) (Acc a q :: l)) in
                    (forall x, fst r x == p x + p (RThreadPost (VThread t)) * amounts st (tr_asn t None (Acc a q :: l)) x)%Q /\
                    ((forall b, In (VB b) (tr_asn t None (Acc a q :: l)) -> truth sub P st p b = true) -> snd r = true)).
        { intros w E1 E2 NW. unfold tr_asn. cbn [flat_map tr_atom]. rewrite E1, E2. cbn [app inhale scaled eval_perm].
          set (p1 := plus p (eval_res st w) (q * p (RThreadPost (VThread t)))).
          destruct (IH Fl p1) as (H1 & H2).
          assert (TP : p1 (RThreadPost (VThread t)) = p (RThreadPost (VThread t))).
          { unfold p1, plus. rewrite (res_eqb_neq _ _ (NW (VThread t))). reflexivity. }
          split.
          - intros x. fold (tr_asn t (Some (PCur t)) l). rewrite (H1 x). rewrite TP. cbn [amounts eval_perm].
            fold (tr_asn t None l). unfold p1, plus. destruct (res_eqb (eval_res st w) x); ring.
          - intros T. apply H2. intros b I. rewrite (truth_plain st p1 p b (fact_asn t None l b I)).
            apply T. right. exact I. }
        destruct a; try contradiction; (eapply X; [reflexivity|reflexivity|intros e; cbn [eval_res]; discriminate]).
      + unfold tr_asn. cbn [flat_map tr_atom app inhale amounts].
        destruct (IH Fl p) as (H1 & H2). fold (tr_asn t (Some (PCur t)) l). fold (tr_asn t None l).
        destruct (inhale sub P st p (tr_asn t (Some (PCur t)) l)) as (p' & ok). cbn [fst snd] in *.
        split; [exact H1|]. intros T. rewrite (T _ (or_introl eq_refl)). cbn [andb]. apply H2.
        intros b' I. exact (T b' (or_intror I)).
  Qed.

  (** ** Facts about types, arguments and old values *)

  Lemma type_facts_only t i l v : In v (type_facts t i l) -> exists b, v = VB b.
  Proof. revert i. induction l as [|T l IH]; intros i I; [destruct I|]. destruct I as [<-|I]; [eauto|exact (IH _ I)]. Qed.

  Lemma type_facts_true st t types :
    typed_args sub types (e_args (thread st t)) ->
    forall p b, In (VB b) (type_facts t 0 types) -> truth sub P st p b = true.
  Proof.
    assert (X : forall types args i, Forall2 (fun v t => has_type sub v t = true) args types ->
              (forall j, nth (i + j) (e_args (thread st t)) (VInt 0) = nth j args (VInt 0)) ->
              forall p b, In (VB b) (type_facts t i types) -> truth sub P st p b = true).
    { intros ts. induction ts as [|T ts IH]; intros args i F N p b I; [destruct I|].
      inversion F as [|v ? args' ? Hv Ha]; subst. destruct I as [I|I].
      - inversion I; subst. cbn [truth eval]. pose proof (N 0) as N0. rewrite Nat.add_0_r in N0. cbn [nth] in N0.
        rewrite N0. exact Hv.
      - apply (IH args' (S i) Ha); [|exact I]. intros j. pose proof (N (S j)) as Nj. cbn [nth] in Nj.
        rewrite <- Nj. f_equal. lia. }
    intros F p b I. apply (X types (e_args (thread st t)) 0 F); [|exact I]. intros j. reflexivity.
  Qed.

  Lemma old_facts_only t l v : In v (old_facts t l) -> exists b, v = VB b.
  Proof. intros I. apply in_map_iff in I as (o & <- & _). eauto. Qed.

  Lemma assoc_map (g : nat * nat -> val) o l : In o l -> assoc o (map (fun o => (o, g o)) l) = g o.
  Proof.
    induction l as [|o' l IH]; intros I; [destruct I|]. cbn [map assoc].
    destruct ((fst o =? fst o') && (snd o =? snd o')) eqn:E.
    - apply andb_true_iff in E as (E1 & E2). apply Nat.eqb_eq in E1, E2. destruct o, o'. cbn [fst snd] in *. subst. reflexivity.
    - destruct I as [->|I]; [rewrite !Nat.eqb_refl in E; discriminate|exact (IH I)].
  Qed.

  Lemma begin_thread_at st t : t < length (table st) ->
    thread (begin_thread P st t) t =
    En (e_meth (thread st t)) (e_args (thread st t))
       (map (fun o => (o, heap st (nth (fst o) (e_args (thread st t)) (VInt 0)) (snd o)))
            (olds_of (m_post (P (e_meth (thread st t)))))) Running (e_perm (thread st t)).
  Proof. intros L. unfold begin_thread. rewrite (thread_set st t _ t L), Nat.eqb_refl. reflexivity. Qed.

  Lemma old_facts_true st t : t < length (table st) ->
    forall p b, In (VB b) (old_facts t (olds_of (m_post (P (e_meth (thread st t)))))) ->
    truth sub P (begin_thread P st t) p b = true.
  Proof.
    intros L p b I. apply in_map_iff in I as (o & E & Io). inversion E; subst. cbn [truth eval].
    rewrite (begin_thread_at st t L). cbn [e_olds e_args]. destruct o as (i & f). cbn [fst snd].
    rewrite (assoc_map (fun o => heap st (nth (fst o) (e_args (thread st t)) (VInt 0)) (snd o)) (i, f) _ Io).
    cbn [fst snd]. apply val_eqb_eq. reflexivity.
  Qed.

  (** ** Executing lists *)

  Lemma exec_app st p l l' :
    exec sub P st p (l ++ l') =
    match exec sub P st p l with
    | None => None
    | Some (p1, ok1) => match exec sub P st p1 l' with
                        | None => None
                        | Some (p2, ok2) => Some (p2, ok1 && ok2)
                        end
    end.
  Proof.
    revert p. induction l as [|s l IH]; intros p; cbn [app exec].
    - destruct (exec sub P st p l') as [(p2 & ok2)|]; reflexivity.
    - destruct (exec1 sub P st p s) as [(p1 & ok1)|]; [|reflexivity]. rewrite IH.
      destruct (exec sub P st p1 l) as [(p2 & ok2)|]; [|reflexivity].
      destruct (exec sub P st p2 l') as [(p3 & ok3)|]; [|reflexivity]. rewrite andb_assoc. reflexivity.
  Qed.

  Lemma exec1_if st p b l :
    exec1 sub P st p (If b l) = if truth sub P st p b then exec sub P st p l else Some (p, true).
  Proof.
    cbn [exec1]. destruct (truth sub P st p b); [|reflexivity]. revert p. induction l as [|s l IH]; intros p; [reflexivity|].
    cbn [exec]. destruct (exec1 sub P st p s) as [(p1 & ok1)|]; [|reflexivity]. rewrite <- IH. reflexivity.
  Qed.

  Lemma exec_cons st p s l :
    exec sub P st p (s :: l) =
    match exec1 sub P st p s with
    | None => None
    | Some (p1, ok1) => match exec sub P st p1 l with
                        | None => None
                        | Some (p2, ok2) => Some (p2, ok1 && ok2)
                        end
    end.
  Proof. reflexivity. Qed.

  Lemma exec1_inhale st p l : exec1 sub P st p (Inhale l) = Some (inhale sub P st p l).
  Proof. reflexivity. Qed.

  Lemma exec1_exhale st p l : exec1 sub P st p (Exhale l) = option_map (fun p' => (p', true)) (exhale sub P st p l).
  Proof. reflexivity. Qed.

  (** Of the options for a thread, only the one for its method is executed. *)
  Lemma exec_options st t (f : nat -> vstmt) (g : nat -> vbool) body opts :
    (forall m, f m = If (g m) (body m)) ->
    (forall m p, truth sub P st p (g m) = true -> m = e_meth (thread st t)) ->
    NoDup opts -> forall p,
    exec sub P st p (map f opts) =
    if existsb (Nat.eqb (e_meth (thread st t))) opts
    then match exec1 sub P st p (f (e_meth (thread st t))) with
         | None => None | Some (p', ok) => Some (p', ok) end
    else Some (p, true).
  Proof.
    intros Ef Eg ND. set (m0 := e_meth (thread st t)).
    assert (N : forall l p, ~ In m0 l -> exec sub P st p (map f l) = Some (p, true)).
    { induction l as [|m l IH]; intros p NI; [reflexivity|]. cbn [map exec]. rewrite Ef, exec1_if.
      destruct (truth sub P st p (g m)) eqn:T.
      - apply Eg in T. exfalso. apply NI. left. exact T.
      - rewrite IH by (intros I; apply NI; right; exact I). reflexivity. }
    induction opts as [|m l IH]; intros p; [reflexivity|]. inversion ND as [|? ? NI ND']; subst.
    cbn [map existsb]. destruct (m0 =? m) eqn:E.
    - apply Nat.eqb_eq in E. subst m. cbn [orb exec]. destruct (exec1 sub P st p (f m0)) as [(p1 & ok1)|]; [|reflexivity].
      rewrite (N l p1 NI), andb_true_r. reflexivity.
    - cbn [orb exec]. assert (E1 : exec1 sub P st p (f m) = Some (p, true)).
      { rewrite Ef, exec1_if. destruct (truth sub P st p (g m)) eqn:T; [|reflexivity].
        apply Eg in T. fold m0 in T. subst m. rewrite Nat.eqb_refl in E. discriminate. }
      rewrite E1, (IH ND' p). destruct (existsb (Nat.eqb m0) l); [|reflexivity].
      destruct (exec1 sub P st p (f m0)) as [(p2 & ok2)|]; reflexivity.
  Qed.

  Lemma options_true st p t opts :
    truth sub P st p (fold_left (fun acc m => BOr acc (BMethod t m)) opts BFalse) =
    existsb (Nat.eqb (e_meth (thread st t))) opts.
  Proof.
    assert (X : forall l b, truth sub P st p (fold_left (fun acc m => BOr acc (BMethod t m)) l b) =
              truth sub P st p b || existsb (Nat.eqb (e_meth (thread st t))) l).
    { induction l as [|m l IH]; intros b; cbn [fold_left existsb]; [rewrite orb_false_r; reflexivity|].
      rewrite IH. cbn [truth]. rewrite orb_assoc. reflexivity. }
    rewrite X. reflexivity.
  Qed.

  (** What a successful start has done. *)
  Lemma start_spec st t opts p p' ok :
    t < length (table st) -> NoDup opts ->
    exec sub P (begin_thread P st t) p (start_stmts P t opts) = Some (p', ok) ->
    let m := e_meth (thread st t) in
    let st1 := begin_thread P st t in
    let pre := tr_asn t None (m_pre (P m)) in
    let p1 := minus p (RMayStart (VThread t)) 1 in
    (1 <= p (RMayStart (VThread t)))%Q /\
    exists p2, exhale sub P st1 p1 pre = Some p2 /\
      p' = (if m_term (P m) (e_args (thread st t)) then plus p2 (RThreadPost (VThread t)) 1 else p2) /\
      (typed_args sub (m_types (P m)) (e_args (thread st t)) -> ok = true).
  Proof.
    intros L ND E m st1 pre p1.
    assert (Em : e_meth (thread st1 t) = m) by (unfold st1; rewrite (begin_thread_at st t L); reflexivity).
    assert (Ea : e_args (thread st1 t) = e_args (thread st t)) by (unfold st1; rewrite (begin_thread_at st t L); reflexivity).
    assert (Es : e_status (thread st1 t) = Running) by (unfold st1; rewrite (begin_thread_at st t L); reflexivity).
    fold st1 in E. unfold start_stmts in E. cbn [exec] in E. cbn [exec1 exhale eval_res eval eval_perm option_map] in E.
    destruct (Qle_bool 0 1 && Qle_bool 1 (p (RMayStart (VThread t)))) eqn:Q; [|discriminate].
    apply andb_true_iff in Q as (_ & Q). apply qle_bool in Q. split; [exact Q|].
    cbn [option_map] in E. fold p1 in E.
    rewrite options_true, Em in E. destruct (existsb (Nat.eqb m) opts) eqn:X; [|discriminate].
    rewrite (exec_options st1 t (start_option P t) (BMethod t)
               (fun m => [Inhale (type_facts t 0 (m_types (P m))); Inhale (old_facts t (olds_of (m_post (P m))));
                          Exhale (tr_asn t None (m_pre (P m)));
                          If (BTerm t m) [Inhale [VB (BJoinable (ELit (VThread t))); VAcc (WThreadPost (ELit (VThread t))) (PLit 1)]]])
               opts (fun m => eq_refl)) in E.
    2: { intros m' q T. cbn [truth] in T. apply Nat.eqb_eq in T. symmetry. exact T. }
    2: { exact ND. }
    rewrite Em, X in E. unfold start_option in E. rewrite exec1_if in E. cbn [truth] in E. rewrite Em, Nat.eqb_refl in E.
    rewrite exec_cons, exec1_inhale in E.
    destruct (inhale_facts st1 (type_facts t 0 (m_types (P m))) (type_facts_only t 0 _) p1) as (T1 & T2).
    destruct (inhale sub P st1 p1 (type_facts t 0 (m_types (P m)))) as (q1 & o1). cbn [fst snd] in T1, T2. subst q1.
    rewrite exec_cons, exec1_inhale in E.
    destruct (inhale_facts st1 (old_facts t (olds_of (m_post (P m)))) (old_facts_only t _) p1) as (O1 & O2).
    destruct (inhale sub P st1 p1 (old_facts t (olds_of (m_post (P m))))) as (q2 & o2). cbn [fst snd] in O1, O2. subst q2.
    rewrite exec_cons, exec1_exhale in E. fold pre in E. destruct (exhale sub P st1 p1 pre) as [p2|] eqn:EX; cbn [option_map] in E; [|discriminate].
    exists p2. split; [reflexivity|].
    rewrite exec_cons, exec1_if in E. cbn [truth exec exec1 inhale eval_res eval eval_perm joinable] in E. rewrite Ea, Em, Es in E.
    assert (o2 = true) as -> by (apply O2; intros b I; exact (old_facts_true st t L p1 b I)).
    assert (TT : typed_args sub (m_types (P m)) (e_args (thread st t)) -> o1 = true).
    { intros T. apply T2. intros b I. apply (type_facts_true st1 t (m_types (P m))); [rewrite Ea; exact T|exact I]. }
    cbn [started andb] in E.
    destruct (m_term (P m) (e_args (thread st t))) eqn:TM.
    - cbn [andb] in E. inversion E; subst. split; [reflexivity|]. intros T. rewrite (TT T). reflexivity.
    - inversion E; subst. split; [reflexivity|]. intros T. rewrite (TT T). reflexivity.
  Qed.

  (** What a successful join has done. *)
  Lemma join_spec st t opts p p' ok :
    t < length (table st) -> NoDup opts -> well_formed P -> (forall r, 0 <= p r)%Q ->
    exec sub P st p (join_stmts P t opts) = Some (p', ok) ->
    let m := e_meth (thread st t) in
    let post := tr_asn t None (m_post (P m)) in
    let q := p (RThreadPost (VThread t)) in
    exists x, (x = q \/ x = 0)%Q /\
      (forall r, p' r == p r + x * amounts st post r - (if res_eqb (RThreadPost (VThread t)) r then q else 0))%Q /\
      (typed_args sub (m_types (P m)) (e_args (thread st t)) ->
       ((0 < q)%Q -> forall b, In (VB b) post -> truth sub P st p b = true) -> ok = true).
  Proof.
    intros L ND WF NN E m post q. destruct (WF m) as (SH & _).
    unfold join_stmts in E. cbn [exec] in E. cbn [exec1 truth] in E.
    destruct (joinable P st (eval st (ELit (VThread t)))); [|discriminate].
    rewrite exec_app in E.
    rewrite (exec_options st t (join_option P t) (fun m => BAnd (BPost t) (BMethod t m))
               (fun m => [Inhale (type_facts t 0 (m_types (P m))); Inhale (tr_asn t (Some (PCur t)) (m_post (P m)))])
               opts (fun m => eq_refl)) in E.
    2: { intros m' q' T. cbn [truth] in T. apply andb_true_iff in T as (_ & T). apply Nat.eqb_eq in T. symmetry. exact T. }
    2: { exact ND. }
    fold m in E.
    assert (TPA : forall v, (amounts st post (RThreadPost v) == 0)%Q).
    { intros v. unfold post. clear - SH. induction (m_post (P m)) as [|a l IH]; [reflexivity|].
      inversion SH as [|? ? Sa Sl]; subst. unfold tr_asn. cbn [flat_map]. rewrite amounts_app. fold (tr_asn t None l).
      rewrite (IH Sl). destruct a as [a' x|a' b']; [destruct a'; try contradiction|]; cbn [tr_atom tr_acc amounts eval_res res_eqb]; lra. }
    (* the exhale of the predicate at the end *)
    assert (EXH : forall p1 (b1 : bool),
      (p1 (RThreadPost (VThread t)) == q)%Q ->
      match exec sub P st p1 [Exhale [VAcc (WThreadPost (ELit (VThread t))) (PCur t)]] with
      | None => None | Some (p2, ok2) => Some (p2, b1 && ok2) end = Some (p', ok) ->
      (forall r, p' r == p1 r - (if res_eqb (RThreadPost (VThread t)) r then q else 0))%Q /\ ok = b1).
    { intros p1 b1 P1 H. cbn [exec exec1 exhale eval_res eval eval_perm] in H.
      destruct (Qle_bool 0 (p1 (RThreadPost (VThread t))) && Qle_bool (p1 (RThreadPost (VThread t))) (p1 (RThreadPost (VThread t)))); [|discriminate].
      cbn [option_map andb] in H. rewrite andb_true_r in H. inversion H; subst. split; [|reflexivity].
      intros r. unfold minus. destruct (res_eqb (RThreadPost (VThread t)) r) eqn:R; lra. }
    destruct (existsb (Nat.eqb m) opts).
    - unfold join_option in E. rewrite exec1_if in E. cbn [truth] in E. fold m in E. rewrite Nat.eqb_refl, andb_true_r in E.
      destruct (Qle_bool (p (RThreadPost (VThread t))) 0) eqn:QP; cbn [negb] in E.
      + cbn [andb] in E. exists 0%Q. split; [right; reflexivity|].
        assert (E' : match exec sub P st p [Exhale [VAcc (WThreadPost (ELit (VThread t))) (PCur t)]] with
                     | None => None | Some (p2, ok2) => Some (p2, true && ok2) end = Some (p', ok)).
        { destruct (exec sub P st p [Exhale [VAcc (WThreadPost (ELit (VThread t))) (PCur t)]]) as [(p2 & ok2)|]; [exact E|discriminate]. }
        destruct (EXH p true (Qeq_refl _) E') as (H1 & ->). split; [|reflexivity]. intros r. rewrite (H1 r). lra.
      + cbn [exec exec1] in E.
        destruct (inhale_facts st (type_facts t 0 (m_types (P m))) (type_facts_only t 0 _) p) as (T1 & T2).
        destruct (inhale sub P st p (type_facts t 0 (m_types (P m)))) as (q1 & o1). cbn [fst snd] in T1, T2. subst q1.
        destruct (inhale_post st t (m_post (P m)) SH p) as (H1 & H2). fold post q in H1, H2.
        destruct (inhale sub P st p (tr_asn t (Some (PCur t)) (m_post (P m)))) as (p3 & o3). cbn [fst snd] in H1, H2.
        exists q. split; [left; reflexivity|].
        assert (P3 : (p3 (RThreadPost (VThread t)) == q)%Q).
        { rewrite (H1 _), (TPA (VThread t)). fold q. ring. }
        assert (E' : match exec sub P st p3 [Exhale [VAcc (WThreadPost (ELit (VThread t))) (PCur t)]] with
                     | None => None | Some (p2, ok2) => Some (p2, (o1 && o3) && ok2) end = Some (p', ok)).
        { rewrite andb_true_r in E. cbn [exec exec1] in E |- *.
          destruct (exhale sub P st p3 [VAcc (WThreadPost (ELit (VThread t))) (PCur t)]) as [p2|]; cbn [option_map] in E |- *; [|discriminate].
          rewrite <- E. rewrite !andb_true_r. reflexivity. }
        destruct (EXH p3 (o1 && o3) P3 E') as (H3 & ->). split.
        * intros r. rewrite (H3 r), (H1 r). reflexivity.
        * intros T FB. assert (0 < q)%Q as Q0.
          { apply Qnot_le_lt. intros C. apply qle_bool in C. fold q in QP. congruence. }
          rewrite (H2 (FB Q0)). rewrite (proj2 T2 (type_facts_true st t (m_types (P m)) T p)). reflexivity.
    - exists 0%Q. split; [right; reflexivity|].
      assert (E' : match exec sub P st p [Exhale [VAcc (WThreadPost (ELit (VThread t))) (PCur t)]] with
                   | None => None | Some (p2, ok2) => Some (p2, true && ok2) end = Some (p', ok)).
      { destruct (exec sub P st p [Exhale [VAcc (WThreadPost (ELit (VThread t))) (PCur t)]]) as [(p2 & ok2)|]; [exact E|discriminate]. }
      destruct (EXH p true (Qeq_refl _) E') as (H1 & ->). split; [|reflexivity]. intros r. rewrite (H1 r). lra.
  Qed.
End Fixed.
