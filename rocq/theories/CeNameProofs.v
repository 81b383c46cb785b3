(** Proofs about names of references and precise types. *)
From Coq Require Import List Bool Arith ZArith Lia FinFun String Ascii DecimalString DecimalNat.
From Coq Require DecimalFacts.
From Verif Require Import CeModel CeSpec CeProofs.
Import ListNotations.
Local Open Scope nat_scope.

(** ** Numbers *)
Lemma lit_inj a : forall b, lit a = lit b -> a = b.
Proof.
  induction a as [|c a IH]; intros [|d b] H; try discriminate; auto.
  rewrite !lit_cons in H. injection H as H1 H2. f_equal; auto.
  apply N2Z.inj in H1. rewrite <- (ascii_N_embedding c), <- (ascii_N_embedding d). congruence.
Qed.
Lemma to_uint_nonnil n : Nat.to_uint n <> Decimal.Nil.
Proof. rewrite <- (Unsigned.of_to n), Unsigned.to_of. apply DecimalFacts.unorm_nonnil. Qed.
Lemma show_nat_inj i j : show_nat i = show_nat j -> i = j.
Proof.
  unfold show_nat. intros H. apply lit_inj in H.
  apply Unsigned.to_uint_inj.
  assert (E : NilZero.uint_of_string (NilZero.string_of_uint (Nat.to_uint i)) = NilZero.uint_of_string (NilZero.string_of_uint (Nat.to_uint j))) by now rewrite H.
  rewrite !NilZero.usu in E by apply to_uint_nonnil. congruence.
Qed.
Lemma show_nat_digits i c : In c (show_nat i) -> (48 <= c <= 57)%Z.
Proof. apply digits_zero. Qed.
Lemma show_nat_nonempty i : show_nat i <> [].
Proof. apply nonempty_zero. Qed.

(** ** Types *)
Section TyInd.
  Variable P : ty -> Prop.
  Hypothesis HC : forall c, P (TC c).
  Hypothesis HG : forall c args, Forall P args -> P (TG c args).
  Fixpoint ty_ind' (t : ty) : P t :=
    match t with
    | TC c => HC c
    | TG c args => HG c args ((fix go (l : list ty) : Forall P l :=
        match l with [] => Forall_nil P | x :: l' => Forall_cons x (ty_ind' x) (go l') end) args)
    end.
End TyInd.
Lemma ty_eqb_spec a : forall b, ty_eqb a b = true <-> a = b.
Proof.
  induction a as [c|c args IH] using ty_ind'; intros [d|d args']; simpl; try (split; discriminate).
  - rewrite Nat.eqb_eq. split; congruence.
  - rewrite andb_true_iff, Nat.eqb_eq.
    assert (L : forall l', (fix all (l l' : list ty) : bool := match l, l' with [], [] => true | x :: r, y :: r' => ty_eqb x y && all r r' | _, _ => false end) args l' = true <-> args = l').
    { induction IH as [|x l Hx Hl IHl]; intros [|y l']; try (split; congruence).
      rewrite andb_true_iff, Hx, IHl. split; [intros []; congruence|]. intros E. injection E. auto. }
    rewrite L. split; [intros []; congruence|]. intros E. injection E. auto.
Qed.
Lemma join_commas l : join (lit ",") l = commas l.
Proof.
  induction l as [|a l IH]; auto. destruct l as [|b l]; auto.
  change (join (lit ",") (a :: b :: l)) with (a ++ lit "," ++ join (lit ",") (b :: l)).
  change (commas (a :: b :: l)) with (a ++ 44%Z :: commas (b :: l)). rewrite IH. reflexivity.
Qed.
Lemma type_name_display cname t : type_name cname t = display cname t.
Proof.
  induction t as [c|c args IH] using ty_ind'; auto. simpl.
  replace (map (type_name cname) args) with (map (display cname) args).
  - rewrite join_commas. reflexivity.
  - apply map_ext_in. intros x Hx. rewrite Forall_forall in IH. symmetry. auto.
Qed.

(** ** Names of references *)
Lemma fresh_spec n : forall i st base t, exists k, fresh n i st base t = base ++ show_nat k /\
  (forall j, i <= j < k -> taken st (base ++ show_nat j) t = true) /\ (taken st (base ++ show_nat k) t = false \/ k = i + n).
Proof.
  induction n as [|n IH]; intros i st base t; simpl.
  - exists i. split; auto. split; [lia|]. right. lia.
  - destruct (taken st (base ++ show_nat i) t) eqn:E.
    + destruct (IH (S i) st base t) as (k & F & B & C). exists k. split; auto. split.
      * intros j Hj. destruct (Nat.eq_dec j i); [subst; auto|]. apply B. lia.
      * destruct C as [C|C]; auto. right. lia.
    + exists i. split; auto. split; auto. lia.
Qed.
Lemma taken_in st n t : taken st n t = true <-> exists v, In (v, (n, t)) st.
Proof.
  unfold taken. rewrite existsb_exists. split.
  - intros ([v [m u]] & H & E). simpl in E. apply andb_true_iff in E. destruct E as [E F].
    apply seqb_spec in E. apply ty_eqb_spec in F. subst. eauto.
  - intros [v H]. exists (v, (n, t)). split; auto. simpl. rewrite seqb_refl. simpl. now apply ty_eqb_spec.
Qed.
Lemma app_inj_l (A : Type) (a b c : list A) : a ++ b = a ++ c -> b = c.
Proof. apply app_inv_head. Qed.
Lemma fresh_new st base t : exists k, fresh (List.length st) 0 st base t = base ++ show_nat k /\ forall v, ~ In (v, (base ++ show_nat k, t)) st.
Proof.
  destruct (fresh_spec (List.length st) 0 st base t) as (k & F & B & C). exists k. split; auto.
  assert (T : taken st (base ++ show_nat k) t = false).
  { destruct C as [C|C]; auto. simpl in C. subst k.
    destruct (taken st (base ++ show_nat (List.length st)) t) eqn:E; auto. exfalso.
    assert (I1 : incl (map (fun j => base ++ show_nat j) (seq 0 (S (List.length st)))) (map (fun e => fst (snd e)) st)).
    { intros x Hx. apply in_map_iff in Hx. destruct Hx as (j & <- & Hj). apply in_seq in Hj.
      assert (Tj : taken st (base ++ show_nat j) t = true).
      { destruct (Nat.eq_dec j (List.length st)); [subst; auto|]. apply B. lia. }
      apply taken_in in Tj. destruct Tj as [v Hv]. apply in_map_iff. exists (v, (base ++ show_nat j, t)). auto. }
    assert (N1 : NoDup (map (fun j => base ++ show_nat j) (seq 0 (S (List.length st))))).
    { apply FinFun.Injective_map_NoDup; [|apply seq_NoDup].
      intros x y E1. apply app_inv_head in E1. now apply show_nat_inj. }
    pose proof (NoDup_incl_length N1 I1) as Le. rewrite !map_length, seq_length in Le. lia. }
  intros v Hv. assert (X : taken st (base ++ show_nat k) t = true) by (apply taken_in; eauto). congruence.
Qed.

Section Run.
  Variable cname : nat -> str.
  Variable actual : str -> ty -> option ty.
  Notation reference_name := (reference_name cname actual).
  Notation reference_names := (reference_names cname actual).

  Fixpoint final (st : names) (l : list (str * ty)) : names :=
    match l with [] => st | (v, t) :: l' => final (snd (reference_name st v t)) l' end.

  Lemma find_app_some st st' v p : find_name st v = Some p -> find_name (st ++ st') v = Some p.
  Proof. induction st as [|[w q] st IH]; simpl; [discriminate|]. destruct (seqb w v); auto. Qed.
  Lemma find_app_none st st' v : find_name st v = None -> find_name (st ++ st') v = find_name st' v.
  Proof. induction st as [|[w q] st IH]; simpl; auto. destruct (seqb w v); [discriminate|auto]. Qed.
  Lemma find_in st v p : find_name st v = Some p -> In (v, p) st.
  Proof.
    induction st as [|[w q] st IH]; simpl; [discriminate|]. destruct (seqb w v) eqn:E; auto.
    intros X. injection X as ->. apply seqb_spec in E. subst. auto.
  Qed.
  Lemma find_none st v : find_name st v = None -> forall p, ~ In (v, p) st.
  Proof.
    induction st as [|[w q] st IH]; simpl; auto. destruct (seqb w v) eqn:E; [discriminate|].
    intros X p [Y|Y]; [|eapply IH; eauto]. injection Y as -> ->. rewrite seqb_refl in E. discriminate.
  Qed.

  (** What a step does. *)
  Lemma step st v t : exists ext, snd (reference_name st v t) = st ++ ext /\
    (exists u, find_name (st ++ ext) v = Some (fst (reference_name st v t), u)) /\
    (ext = [] \/
     find_name st v = None /\ exists n a, ext = [(v, (n, a))] /\
       (is_none cname actual v t /\ n = lit "None" /\ a = resolved actual v t \/
        (forall w, ~ In (w, (n, a)) st) /\
        (~ is_none cname actual v t /\ actual v t = Some a /\ (exists k, n = display cname a ++ show_nat k) \/
         actual v t = None /\ a = t /\ exists k, n = lit "?" ++ show_nat k))).
  Proof.
    unfold CeModel.reference_name. destruct (find_name st v) as [[n u]|] eqn:F.
    - exists []. rewrite app_nil_r. split; auto. split; eauto.
    - destruct (actual v t) as [a|] eqn:A.
      + destruct (seqb (class_name cname a) (lit "NoneType")) eqn:E.
        * exists [(v, (lit "None", a))]. split; auto. split.
          { exists a. rewrite find_app_none by auto. simpl. now rewrite seqb_refl. }
          right. split; auto. exists (lit "None"), a. split; auto. left.
          split; [|split; auto; unfold resolved; now rewrite A].
          exists a. split; auto. apply seqb_spec in E. destruct a; exact E.
        * destruct (fresh_new st (type_name cname a) a) as (k & Fr & Nw). simpl.
          rewrite Fr. exists [(v, (type_name cname a ++ show_nat k, a))]. split; auto. split.
          { exists a. rewrite find_app_none by auto. simpl. now rewrite seqb_refl. }
          right. split; auto. exists (type_name cname a ++ show_nat k), a. split; auto. right. split; auto. left.
          split; [|split; auto; exists k; now rewrite type_name_display].
          intros (b & B & N). rewrite A in B. injection B as <-. apply seqb_false in E. apply E. destruct a; exact N.
      + destruct (fresh_new st (lit "?") t) as (k & Fr & Nw). simpl fst. simpl snd.
        rewrite Fr. exists [(v, (lit "?" ++ show_nat k, t))]. split; auto. split.
        { exists t. rewrite find_app_none by auto. simpl. now rewrite seqb_refl. }
        right. split; auto. exists (lit "?" ++ show_nat k), t. split; auto. right. split; auto. right. eauto.
  Qed.

  Lemma final_ext l : forall st, exists ext, final st l = st ++ ext.
  Proof.
    induction l as [|[v t] l IH]; intros st; simpl.
    - exists []. now rewrite app_nil_r.
    - destruct (step st v t) as (e & E & _). rewrite E. destruct (IH (st ++ e)) as [e' ->]. exists (e ++ e'). now rewrite app_assoc.
  Qed.
  Lemma names_final l : forall st i v t, nth_error l i = Some (v, t) ->
    exists n u, nth_error (reference_names st l) i = Some n /\ find_name (final st l) v = Some (n, u).
  Proof.
    induction l as [|[w s] l IH]; intros st [|i] v t H; try discriminate.
    - simpl in H. injection H as -> ->. destruct (step st v t) as (e & E & (u & F) & _). simpl.
      destruct (reference_name st v t) as [n st'] eqn:R. simpl in *. subst st'.
      exists n, u. split; auto. destruct (final_ext l (st ++ e)) as [e' ->]. now apply find_app_some.
    - simpl. destruct (reference_name st w s) as [n st'] eqn:R. simpl. eauto.
  Qed.

  (** What is known of the entries after the requests pre. *)
  Record inv (pre : list (str * ty)) (st : names) : Prop := {
    inv_keys : forall v t, In (v, t) pre -> exists p, In (v, p) st;
    inv_entry : forall v n a, In (v, (n, a)) st -> exists t, declared pre v t /\
      (is_none cname actual v t /\ n = lit "None" /\ a = resolved actual v t \/
       ~ is_none cname actual v t /\ actual v t = Some a /\ (exists k, n = display cname a ++ show_nat k) \/
       actual v t = None /\ a = t /\ exists k, n = lit "?" ++ show_nat k);
    inv_pairs : forall v w n a, v <> w -> In (v, (n, a)) st -> In (w, (n, a)) st -> n = lit "None"
  }.
  Lemma declared_in l v t : declared l v t -> In (v, t) l.
  Proof.
    induction l as [|[w u] l IH]; simpl; auto. intros [[-> ->]|[_ H]]; auto.
  Qed.
  Lemma declared_app l l' v t : declared l v t -> declared (l ++ l') v t.
  Proof. induction l as [|[w u] l IH]; simpl; [tauto|]. intros [H|[H K]]; auto. Qed.
  Lemma declared_new l v t : (forall u, ~ In (v, u) l) -> declared (l ++ [(v, t)]) v t.
  Proof.
    induction l as [|[w u] l IH]; simpl; auto. intros H. right. split.
    - intros ->. apply (H u). auto.
    - apply IH. intros u' X. apply (H u'). auto.
  Qed.
  Lemma declared_fun l v : forall t u, declared l v t -> declared l v u -> t = u.
  Proof. induction l as [|[w s] l IH]; simpl; [tauto|]. intros t u [[A B]|[A B]] [[C D]|[C D]]; try congruence; auto. Qed.

  Lemma not_none_ends s k : lit "None" <> s ++ show_nat k.
  Proof.
    intros H. destruct (exists_last (show_nat_nonempty k)) as (r & c & E).
    pose proof (show_nat_digits k c) as D. rewrite E in D, H. rewrite app_assoc in H.
    assert (X : (48 <= c <= 57)%Z) by (apply D; apply in_or_app; right; now left).
    change (lit "None") with ([78; 111; 110]%Z ++ [101%Z]) in H. apply app_inj_tail in H. lia.
  Qed.

  Lemma inv_final l : forall pre st, inv pre st -> inv (pre ++ l) (final st l).
  Proof.
    induction l as [|[v t] l IH]; intros pre st H; simpl; [now rewrite app_nil_r|].
    replace (pre ++ (v, t) :: l) with ((pre ++ [(v, t)]) ++ l) by (rewrite <- app_assoc; reflexivity).
    apply IH. clear IH. destruct H as [K E P]. destruct (step st v t) as (ext & -> & (u & F) & C).
    destruct C as [-> | (N & n & a & -> & C)].
    - rewrite app_nil_r in *. split; auto.
      + intros w s Hw. apply in_app_or in Hw. destruct Hw as [Hw|[Hw|[]]]; eauto. injection Hw as <- <-. exists (fst (reference_name st v t), u). now apply find_in.
      + intros w m b Hw. destruct (E w m b Hw) as (s & D & R). exists s. split; auto. now apply declared_app.
    - pose proof (find_none _ _ N) as Nin. split.
      + intros w s Hw. apply in_app_or in Hw. destruct Hw as [Hw|[Hw|[]]].
        * destruct (K w s Hw) as [p Hp]. exists p. apply in_or_app. auto.
        * injection Hw as <- <-. exists (n, a). apply in_or_app. right. now left.
      + intros w m b Hw. apply in_app_or in Hw. destruct Hw as [Hw|[Hw|[]]].
        * destruct (E w m b Hw) as (s & D & R). exists s. split; auto. now apply declared_app.
        * injection Hw as <- <- <-. exists t. split.
          -- apply declared_new. intros s X. destruct (K v s X) as [p Hp]. eapply Nin; eauto.
          -- destruct C as [C|[_ [C|C]]]; auto.
      + intros w w' m b Hne Hw Hw'. apply in_app_or in Hw. apply in_app_or in Hw'.
        destruct Hw as [Hw|[Hw|[]]], Hw' as [Hw'|[Hw'|[]]].
        * eauto.
        * injection Hw' as <- <- <-. destruct C as [(_ & -> & _)|[C _]]; auto. exfalso. eapply C; eauto.
        * injection Hw as <- <- <-. destruct C as [(_ & -> & _)|[C _]]; auto. exfalso. eapply C; eauto.
        * congruence.
  Qed.
  Lemma inv_run l : inv l (final [] l).
  Proof. apply (inv_final l []). split; simpl; try tauto. Qed.

  Lemma same_name l i j v t u : nth_error l i = Some (v, t) -> nth_error l j = Some (v, u) ->
    exists n, nth_error (reference_names [] l) i = Some n /\ nth_error (reference_names [] l) j = Some n.
  Proof.
    intros A B. destruct (names_final l [] i v t A) as (n & a & E & F). destruct (names_final l [] j v u B) as (n' & a' & E' & F').
    exists n. split; auto. congruence.
  Qed.

  Lemma same_type l i j v w t u t0 u0 n : nth_error l i = Some (v, t) -> nth_error l j = Some (w, u) -> v <> w ->
    declared l v t0 -> declared l w u0 ->
    nth_error (reference_names [] l) i = Some n -> nth_error (reference_names [] l) j = Some n ->
    resolved actual v t0 <> resolved actual w u0 \/ is_none cname actual v t0 /\ is_none cname actual w u0.
  Proof.
    intros A B Hne D D' N N'. destruct (names_final l [] i v t A) as (n1 & a & E & F). destruct (names_final l [] j w u B) as (n2 & b & E' & F').
    assert (n1 = n) by congruence. assert (n2 = n) by congruence. subst n1 n2.
    apply find_in in F, F'. destruct (inv_run l) as [_ En Pa].
    destruct (En _ _ _ F) as (t1 & D1 & R1). destruct (En _ _ _ F') as (u1 & D2 & R2).
    rewrite (declared_fun _ _ _ _ D1 D) in *. rewrite (declared_fun _ _ _ _ D2 D') in *. clear D1 D2.
    assert (Ra : a = resolved actual v t0) by (unfold resolved; destruct R1 as [(_ & _ & X)|[(_ & -> & _)|(-> & X & _)]]; auto).
    assert (Rb : b = resolved actual w u0) by (unfold resolved; destruct R2 as [(_ & _ & X)|[(_ & -> & _)|(-> & X & _)]]; auto).
    rewrite <- Ra, <- Rb.
    destruct R1 as [(X & -> & _)|R1].
    - destruct R2 as [(Y & _)|[(_ & _ & k & Y)|(_ & _ & k & Y)]]; auto; exfalso; eapply not_none_ends; eauto.
    - left. intros ->. rewrite (Pa v w n b Hne F F') in R1.
      destruct R1 as [(_ & _ & k & Y)|(_ & _ & k & Y)]; eapply not_none_ends; eauto.
  Qed.

  (** A name without a digit at its end is determined by the name and a number after it. *)
  Lemma digits_tail a b (x y : str) : ~ ends_in_digit a -> ~ ends_in_digit b ->
    (forall c, In c x -> (48 <= c <= 57)%Z) -> (forall c, In c y -> (48 <= c <= 57)%Z) -> a ++ x = b ++ y -> a = b /\ x = y.
  Proof.
    intros Ha Hb Hx Hy E. revert b y Hb Hy E. induction a as [|c a IH]; intros b y Hb Hy E.
    - destruct b as [|d b]; auto. exfalso. apply Hb. destruct (exists_last (l := d :: b)) as (r & e & F); [discriminate|].
      exists r, e. split; auto. apply Hx. simpl in E. rewrite E. change (d :: b ++ y) with ((d :: b) ++ y). rewrite F. apply in_or_app. left. apply in_or_app. right. now left.
    - destruct b as [|d b].
      + exfalso. apply Ha. destruct (exists_last (l := c :: a)) as (r & e & F); [discriminate|].
        exists r, e. split; auto. apply Hy. simpl in E. rewrite <- E. change (c :: a ++ x) with ((c :: a) ++ x). rewrite F. apply in_or_app. left. apply in_or_app. right. now left.
      + simpl in E. injection E as -> E. assert (Ha' : ~ ends_in_digit a) by (intros (r & e & -> & He); apply Ha; exists (d :: r), e; auto).
        assert (Hb' : ~ ends_in_digit b) by (intros (r & e & -> & He); apply Hb; exists (d :: r), e; auto).
        destruct (IH Ha' b y Hb' Hy E) as [-> ->]. auto.
  Qed.
  Lemma question_digit : ~ ends_in_digit (lit "?").
  Proof.
    intros (r & c & E & H). change (lit "?") with ([] ++ [63%Z]) in E. apply app_inj_tail in E. lia.
  Qed.

  Lemma distinct l i j v w t u n n' : clear cname actual l -> nth_error l i = Some (v, t) -> nth_error l j = Some (w, u) ->
    nth_error (reference_names [] l) i = Some n -> nth_error (reference_names [] l) j = Some n' -> (n = n' <-> v = w).
  Proof.
    intros [C1 C2 C3 C4] A B N N'. split.
    2: { intros ->. destruct (same_name l i j w t u A B) as (m & X & Y). congruence. }
    intros <-. destruct (list_eq_dec Z.eq_dec v w) as [|Hne]; auto. exfalso.
    destruct (names_final l [] i v t A) as (n1 & a & E & F). destruct (names_final l [] j w u B) as (n2 & b & E' & F').
    assert (n1 = n) by congruence. assert (n2 = n) by congruence. subst n1 n2.
    apply find_in in F, F'. destruct (inv_run l) as [_ En Pa].
    destruct (En _ _ _ F) as (t1 & D1 & R1). destruct (En _ _ _ F') as (u1 & D2 & R2).
    apply declared_in in D1, D2.
    destruct R1 as [(X & -> & _)|R1].
    - destruct R2 as [(Y & _)|[(_ & _ & k & Y)|(_ & _ & k & Y)]]; [|eapply not_none_ends; eauto..].
      apply Hne. eapply C4; eauto.
    - destruct R2 as [(Y & -> & _)|R2].
      { destruct R1 as [(_ & _ & k & Z)|(_ & _ & k & Z)]; eapply not_none_ends; eauto. }
      assert (Q : a = b).
      { destruct R1 as [(_ & Aa & k & Na)|(Aa & -> & k & Na)], R2 as [(_ & Ab & k' & Nb)|(Ab & -> & k' & Nb)].
        - destruct (C2 _ _ _ D1 Aa) as [X1 _]. destruct (C2 _ _ _ D2 Ab) as [X2 _].
          destruct (digits_tail (display cname a) (display cname b) (show_nat k) (show_nat k') X1 X2) as [X _]; [apply show_nat_digits..|congruence|].
          exact (C1 _ _ _ _ _ _ D1 D2 Aa Ab X).
        - exfalso. destruct (C2 _ _ _ D1 Aa) as [X1 X2].
          destruct (digits_tail (display cname a) (lit "?") (show_nat k) (show_nat k') X1 question_digit) as [X _]; [apply show_nat_digits..|congruence|]. contradiction.
        - exfalso. destruct (C2 _ _ _ D2 Ab) as [X1 X2].
          destruct (digits_tail (lit "?") (display cname b) (show_nat k) (show_nat k') question_digit X1) as [X _]; [apply show_nat_digits..|congruence|]. congruence.
        - exact (C3 _ _ _ _ D1 D2 Aa Ab). }
      subst b. rewrite (Pa v w n a Hne F F') in R1.
      destruct R1 as [(_ & _ & k & Z)|(_ & _ & k & Z)]; eapply not_none_ends; eauto.
  Qed.
End Run.

(** ** Precise types *)
Section Precise.
  Variable subclasses : nat -> list nat.
  Variable type_val : nat -> option str.
  Variable basic : str -> option str.
  Variable issub : str -> str -> str.
  Variable v : str.
  Variable k : nat.
  Hypothesis D : describes subclasses type_val issub v k.
  Notation below := (below subclasses).

  Lemma is_type_below c : is_type type_val issub v c = true -> (below k c \/ ~ below k c) -> below k c.
  Proof.
    intros H [B|B]; auto. exfalso. unfold is_type in H. destruct (type_val c) as [w|] eqn:E; [|discriminate].
    rewrite (desc_no _ _ _ _ _ D c w E B) in H. destruct (seqb w v) eqn:F; [|discriminate].
    apply seqb_spec in F. subst. apply B. rewrite (desc_inj _ _ _ _ _ D c k v E (desc_val _ _ _ _ _ D)). constructor.
  Qed.
  Lemma below_is_type c : below k c -> type_val c <> None -> is_type type_val issub v c = true.
  Proof.
    intros B P. unfold is_type. destruct (type_val c) as [w|] eqn:E; [|contradiction].
    rewrite (desc_yes _ _ _ _ _ D c w E B). apply orb_true_r.
  Qed.
  Lemma below_trans a b : below a b -> forall c, below b c -> below a c.
  Proof. intros H c K. induction K; auto. econstructor; eauto. Qed.

  Lemma search_type fuel b todo c : search subclasses type_val fuel b todo = Some c -> type_val c = Some b.
  Proof.
    revert todo. induction fuel as [|n IH]; intros todo H; [discriminate|]. simpl in H.
    destruct todo as [|x todo]; [discriminate|]. destruct (type_val x) as [w|] eqn:E; eauto.
    destruct (seqb w b) eqn:F; eauto. apply seqb_spec in F. congruence.
  Qed.
  Lemma basic_type_cases fuel t : basic_type subclasses type_val basic fuel v t = t \/ basic_type subclasses type_val basic fuel v t = k.
  Proof.
    unfold basic_type. destruct (basic v) as [b|]; auto. destruct (seqb b v) eqn:E; auto.
    apply seqb_spec in E. subst b. destruct (search _ _ _ _ _) as [c|] eqn:F; auto. right.
    apply search_type in F. exact (desc_inj _ _ _ _ _ D c k v F (desc_val _ _ _ _ _ D)).
  Qed.

  Variable h : nat -> nat.
  Hypothesis R : ranked subclasses h.
  Lemma below_decide n : forall c, h c < n -> below k c \/ ~ below k c.
  Proof.
    induction n as [|n IH]; intros c Hc; [lia|].
    destruct (Nat.eq_dec k c) as [->|Hk]; [left; constructor|].
    assert (L : (exists d, In d (subclasses c) /\ below k d) \/ forall d, In d (subclasses c) -> ~ below k d).
    { assert (H : forall d, In d (subclasses c) -> h d < n) by (intros d Hd; pose proof (R _ _ Hd); lia).
      revert H. generalize (subclasses c) as l. induction l as [|x l IHl]; intros H; [right; intros d []|].
      destruct (IH x) as [X|X]; [apply H; now left|left; exists x; split; auto; now left|].
      destruct IHl as [(d & A & B)|B]; [intros d Hd; apply H; now right|left; exists d; split; auto; now right|].
      right. intros d [<-|Hd]; auto. }
    destruct L as [(d & A & B)|L]; [left; econstructor; eauto|]. right. intros X. inversion X; subst; [contradiction|]. eapply L; eauto.
  Qed.
  Lemma decide c : below k c \/ ~ below k c.
  Proof. apply (below_decide (S (h c))). auto. Qed.
  Lemma precise_sound fuel : forall t d, precise subclasses type_val basic issub fuel v t = Some d -> below k d /\ below d t.
  Proof.
    induction fuel as [|n IH]; intros t d H; [discriminate|]. simpl in H.
    destruct (is_type type_val issub v t) eqn:T; [|discriminate]. pose proof (is_type_below t T (decide t)) as Bt.
    destruct (find _ _) as [sc|] eqn:F.
    - apply find_some in F. destruct F as [F1 F2]. destruct (IH _ _ H) as [A B]. split; auto.
      apply below_trans with sc; auto. destruct (basic_type_cases n t) as [E|E]; rewrite E in F1.
      + econstructor; eauto. constructor.
      + apply below_trans with k; auto. econstructor; eauto. constructor.
    - injection H as <-. split; auto. constructor.
  Qed.
  Lemma below_rank a b : below a b -> h a <= h b.
  Proof. induction 1 as [|c d I _ IH]; auto. pose proof (R _ _ I). lia. Qed.
  Lemma precise_found fuel : forall t, h t < fuel -> below k t -> type_val t <> None -> precise subclasses type_val basic issub fuel v t <> None.
  Proof.
    induction fuel as [|n IH]; intros t Hf B P; [lia|]. simpl. rewrite below_is_type by auto.
    destruct (find _ _) as [sc|] eqn:F; [|discriminate]. apply find_some in F. destruct F as [F1 F2].
    pose proof (is_type_below sc F2 (decide sc)) as Bs. apply IH; auto.
    - destruct (basic_type_cases n t) as [E|E]; rewrite E in F1; pose proof (R _ _ F1); try lia.
      pose proof (below_rank _ _ B). lia.
    - unfold is_type in F2. destruct (type_val sc); [discriminate|discriminate].
  Qed.
  Lemma precise_exact fuel : basic v = None -> forall t, h t < fuel -> below k t -> (forall c, below c t -> below k c -> type_val c <> None) ->
    precise subclasses type_val basic issub fuel v t = Some k.
  Proof.
    intros Nb. induction fuel as [|n IH]; intros t Hf B P; [lia|]. simpl.
    rewrite below_is_type by (auto; apply P; auto; constructor).
    replace (basic_type subclasses type_val basic n v t) with t by (unfold basic_type; now rewrite Nb).
    destruct (find _ _) as [sc|] eqn:F.
    - apply find_some in F. destruct F as [F1 F2]. apply IH.
      + pose proof (R _ _ F1). lia.
      + apply is_type_below; auto using decide.
      + intros c Hc. apply P. apply below_trans with sc; auto. econstructor; eauto. constructor.
    - inversion B; subst; auto. exfalso.
      pose proof (List.find_none _ _ F d H) as X. rewrite below_is_type in X; try discriminate; auto.
      apply P; auto. econstructor; eauto. constructor.
  Qed.
End Precise.
