(** Proofs about the values of terms in counterexamples. *)
From Coq Require Import List Bool Arith ZArith Lia String Ascii DecimalString DecimalZ.
From Verif Require Import CeModel CeSpec.
Import ListNotations.
Local Open Scope Z_scope.

Lemma seqb_spec a : forall b, seqb a b = true <-> a = b.
Proof.
  induction a as [|x a IH]; intros [|y b]; simpl; split; intros H; try congruence; auto.
  - apply andb_true_iff in H. destruct H as [H1 H2]. apply Z.eqb_eq in H1. apply IH in H2. congruence.
  - injection H as -> ->. rewrite Z.eqb_refl. simpl. now apply IH.
Qed.
Lemma seqb_refl a : seqb a a = true.
Proof. now apply seqb_spec. Qed.
Lemma seqb_false a b : seqb a b = false <-> a <> b.
Proof.
  split; intros H.
  - intros ->. rewrite seqb_refl in H. discriminate.
  - destruct (seqb a b) eqn:E; auto. apply seqb_spec in E. contradiction.
Qed.
Lemma seqsb_spec a : forall b, seqsb a b = true <-> a = b.
Proof.
  induction a as [|x a IH]; intros [|y b]; simpl; split; intros H; try congruence; auto.
  - apply andb_true_iff in H. destruct H as [H1 H2]. apply seqb_spec in H1. apply IH in H2. congruence.
  - injection H as -> ->. rewrite seqb_refl. simpl. now apply IH.
Qed.

(** ** Induction on trees and terms *)
Section SexpInd.
  Variable P : sexp -> Prop.
  Hypothesis HA : forall a, P (Atom a).
  Hypothesis HN : forall f args, Forall P args -> P (Node f args).
  Fixpoint sexp_ind' (v : sexp) : P v :=
    match v with
    | Atom a => HA a
    | Node f args => HN f args ((fix go (l : list sexp) : Forall P l :=
        match l with [] => Forall_nil P | x :: l' => Forall_cons x (sexp_ind' x) (go l') end) args)
    end.
End SexpInd.
Section TermInd.
  Variable P : term -> Prop.
  Hypothesis H1 : P TUnit.
  Hypothesis H2 : forall z, P (TInt z).
  Hypothesis H3 : P TNull.
  Hypothesis H4 : forall x, P (TVar x).
  Hypothesis H5 : forall f args, Forall P args -> P (TApp f args).
  Hypothesis H6 : forall a b, P a -> P b -> P (TCombine a b).
  Hypothesis H7 : forall a, P a -> P (TFirst a).
  Hypothesis H8 : forall a, P a -> P (TSecond a).
  Hypothesis H9 : forall f t a, P a -> P (TWrap f t a).
  Hypothesis H10 : P TSeqNil.
  Hypothesis H11 : forall a, P a -> P (TSeqOne a).
  Hypothesis H12 : forall a b, P a -> P b -> P (TSeqAppend a b).
  Fixpoint term_ind' (t : term) : P t :=
    match t with
    | TUnit => H1 | TInt z => H2 z | TNull => H3 | TVar x => H4 x
    | TApp f args => H5 f args ((fix go (l : list term) : Forall P l :=
        match l with [] => Forall_nil P | x :: l' => Forall_cons x (term_ind' x) (go l') end) args)
    | TCombine a b => H6 a b (term_ind' a) (term_ind' b)
    | TFirst a => H7 a (term_ind' a) | TSecond a => H8 a (term_ind' a)
    | TWrap f g a => H9 f g a (term_ind' a)
    | TSeqNil => H10 | TSeqOne a => H11 a (term_ind' a)
    | TSeqAppend a b => H12 a b (term_ind' a) (term_ind' b)
    end.
End TermInd.

Lemma proper_node f args :
  proper (Node f args) <-> symbol f /\ args <> [] /\ (f = combine_ -> List.length args = 2%nat) /\ Forall proper args.
Proof.
  simpl. assert (H : (fix all (l : list sexp) : Prop := match l with [] => True | x :: l' => proper x /\ all l' end) args <-> Forall proper args).
  { induction args as [|x l IH]; split; intros H; auto.
    - destruct H as [H K]. constructor; auto. now apply IH.
    - inversion H; subst. split; auto. now apply IH. }
  rewrite H. reflexivity.
Qed.

(** ** Clean strings *)
Fixpoint cl (b : bool) (s : str) : bool :=
  match s with
  | [] => negb b
  | c :: s' => if c =? sp then negb b && cl true s' else negb (is_space c) && cl false s'
  end.
Lemma cl_app s : forall b r, cl b s = true -> cl b (s ++ r) = cl false r.
Proof.
  induction s as [|c s IH]; intros b r H.
  - simpl in *. destruct b; try discriminate. reflexivity.
  - simpl in *. destruct (c =? sp).
    + apply andb_true_iff in H. destruct H as [H K]. rewrite H. simpl. now apply IH.
    + apply andb_true_iff in H. destruct H as [H K]. rewrite H. simpl. now apply IH.
Qed.
Lemma space_sp : is_space sp = true.
Proof. reflexivity. Qed.
Lemma cl_symbol a : symbol a -> forall b, cl b a = true.
Proof.
  intros [Hn H] b.
  assert (K : forall r, (forall c, In c r -> is_space c = false) -> cl false r = true).
  { induction r as [|c r IH]; intros K; auto. simpl.
    destruct (Z.eqb_spec c sp) as [E|E].
    - subst. specialize (K sp (or_introl eq_refl)). discriminate.
    - rewrite (K c (or_introl eq_refl)). simpl. apply IH. intros d Hd. apply K. now right. }
  destruct a as [|c a]; try contradiction. simpl.
  destruct (Z.eqb_spec c sp) as [E|E].
  - subst. destruct (H sp (or_introl eq_refl)) as [X _]. discriminate.
  - destruct (H c (or_introl eq_refl)) as [-> _]. simpl. apply K. intros d Hd. apply H. now right.
Qed.
Lemma cl_spaced l : Forall (fun a => cl true a = true) l -> forall r, cl false (spaced l ++ r) = cl false r.
Proof.
  induction 1 as [|a l Ha Hl IH]; intros r; auto.
  change (spaced (a :: l)) with (sp :: a ++ spaced l).
  rewrite <- app_comm_cons, <- app_assoc. simpl. rewrite cl_app; auto.
Qed.
Lemma cl_any s : cl true s = true -> cl false s = true.
Proof. destruct s as [|c s]; auto. simpl. destruct (c =? sp); auto. discriminate. Qed.
Lemma cl_print v : proper v -> cl true (print v) = true.
Proof.
  induction v as [a|f args IH] using sexp_ind'; intros H.
  - now apply cl_symbol.
  - apply proper_node in H. destruct H as (Hf & Hn & _ & Ha).
    change (print (Node f args)) with (open :: f ++ spaced (map print args) ++ [close]).
    simpl. rewrite cl_app by now apply cl_symbol. rewrite cl_spaced; auto.
    apply Forall_map. rewrite Forall_forall in *. intros x Hx. auto.
Qed.

Lemma split_nonempty s : forall cur, (cur <> [] \/ cl true s = true) -> split_ cur s <> [].
Proof.
  induction s as [|c s IH]; intros cur H; simpl.
  - destruct cur; try discriminate. destruct H; [contradiction|discriminate].
  - destruct (is_space c) eqn:E.
    + destruct cur; try discriminate. destruct H as [H|H]; [contradiction|]. simpl in H.
      destruct (c =? sp); try discriminate. rewrite E in H. discriminate.
    + apply IH. left. discriminate.
Qed.
Lemma join_cons a l : l <> [] -> join [sp] (a :: l) = a ++ sp :: join [sp] l.
Proof. destruct l; auto. contradiction. Qed.
Lemma split_join s : forall cur,
  cl (match cur with [] => true | _ => false end) s = true -> join [sp] (split_ cur s) = rev cur ++ s.
Proof.
  induction s as [|c s IH]; intros cur H.
  - destruct cur; try discriminate. simpl. now rewrite app_nil_r.
  - simpl in H. destruct (Z.eqb_spec c sp) as [E|E].
    + subst. destruct cur as [|d cur]; simpl in H; try discriminate.
      cbn [split_]. rewrite space_sp. cbn iota.
      rewrite join_cons by (apply split_nonempty; now right). now rewrite IH.
    + apply andb_true_iff in H. destruct H as [H K]. apply negb_true_iff in H.
      simpl split_. rewrite H. rewrite IH; auto. simpl. now rewrite <- app_assoc.
Qed.
Lemma norm_clean s : cl true s = true -> norm s = s.
Proof. intros H. unfold norm. now rewrite split_join. Qed.
Lemma norm_print v : proper v -> norm (print v) = print v.
Proof. intros H. apply norm_clean. now apply cl_print. Qed.

(** ** Splitting printed trees *)
Lemma cut_symbol f r : symbol f -> cut (f ++ sp :: r) = Some (f, r).
Proof.
  intros [_ H]. induction f as [|c f IH]; auto.
  simpl. destruct (Z.eqb_spec c sp) as [E|E].
  - subst. destruct (H sp (or_introl eq_refl)) as [X _]. discriminate.
  - rewrite IH; auto. intros d Hd. apply H. now right.
Qed.
Lemma parts_symbol a : symbol a -> forall d cur r, parts d cur (a ++ r) = parts d (rev a ++ cur) r.
Proof.
  intros [_ H]. induction a as [|c a IH]; intros d cur r; auto.
  destruct (H c (or_introl eq_refl)) as (A & B & C). simpl.
  destruct (Z.eqb_spec c open) as [E|E]; [contradiction|].
  destruct (Z.eqb_spec c close) as [E'|E']; [contradiction|].
  destruct (Z.eqb_spec c sp) as [E''|E'']; [subst; discriminate|]. simpl.
  rewrite IH by (intros e He; apply H; now right). now rewrite <- app_assoc.
Qed.
(** Inside of parentheses nothing is split. *)
Lemma parts_inner v : proper v -> forall d cur r, 0 < d -> parts d cur (print v ++ r) = parts d (rev (print v) ++ cur) r.
Proof.
  induction v as [a|f args IH] using sexp_ind'; intros H d cur r Hd.
  - now apply parts_symbol.
  - apply proper_node in H. destruct H as (Hf & Hn & _ & Ha).
    change (print (Node f args)) with (open :: f ++ spaced (map print args) ++ [close]).
    rewrite <- app_comm_cons, <- !app_assoc. cbn [parts].
    change (open =? open) with true. cbn iota.
    rewrite parts_symbol by assumption.
    assert (L : forall l, Forall (fun v => proper v -> forall d cur r, 0 < d -> parts d cur (print v ++ r) = parts d (rev (print v) ++ cur) r) l ->
              Forall proper l -> forall cur r, parts (d + 1) cur (spaced (map print l) ++ r) = parts (d + 1) (rev (spaced (map print l)) ++ cur) r).
    { clear - Hd. induction l as [|x l IHl]; intros A B cur r; auto.
      inversion A; subst. inversion B; subst. cbn [map spaced].
      rewrite <- app_comm_cons, <- app_assoc. cbn [parts].
      change (32 =? open) with false. change (32 =? close) with false. cbn iota.
      replace ((32 =? sp) && (d + 1 =? 0)) with false by (symmetry; apply andb_false_iff; right; apply Z.eqb_neq; lia).
      rewrite H1 by (auto; lia). rewrite IHl by auto.
      f_equal. simpl. rewrite rev_app_distr, <- !app_assoc. reflexivity. }
    rewrite L; auto. change ([close] ++ r) with (close :: r). cbn [parts]. change (close =? open) with false. change (close =? close) with true.
    cbn iota. replace (d + 1 - 1) with d by lia. f_equal.
    cbn [rev]. rewrite !rev_app_distr. simpl. rewrite <- !app_assoc. simpl. reflexivity.
Qed.
Lemma parts_outer v : proper v -> forall cur r, parts 0 cur (print v ++ r) = parts 0 (rev (print v) ++ cur) r.
Proof.
  intros H cur r. destruct v as [a|f args].
  - now apply parts_symbol.
  - pose proof H as H'. apply proper_node in H. destruct H as (Hf & Hn & _ & Ha).
    change (print (Node f args)) with (open :: f ++ spaced (map print args) ++ [close]).
    rewrite <- app_comm_cons, <- !app_assoc. cbn [parts].
    change (open =? open) with true. cbn iota. rewrite parts_symbol by assumption.
    assert (L : forall l, Forall proper l -> forall cur r, parts (0 + 1) cur (spaced (map print l) ++ r) = parts (0 + 1) (rev (spaced (map print l)) ++ cur) r).
    { induction l as [|x l IHl]; intros B cur' r'; auto.
      inversion B; subst. cbn [map spaced].
      rewrite <- app_comm_cons, <- app_assoc. cbn [parts].
      change (32 =? open) with false. change (32 =? close) with false.
      change ((32 =? sp) && (0 + 1 =? 0)) with false. cbn iota.
      rewrite parts_inner by (auto; lia). rewrite IHl by auto.
      f_equal. simpl. rewrite rev_app_distr, <- !app_assoc. reflexivity. }
    rewrite L; auto. change ([close] ++ r) with (close :: r). cbn [parts]. change (close =? open) with false. change (close =? close) with true.
    cbn iota. f_equal.
    cbn [rev]. rewrite !rev_app_distr. simpl. rewrite <- !app_assoc. simpl. reflexivity.
Qed.
Lemma parts_spaced l : Forall proper l -> forall cur, parts 0 cur (spaced (map print l)) = rev cur :: map print l.
Proof.
  induction 1 as [|x l Hx Hl IH]; intros cur; auto.
  cbn [map spaced parts]. change (32 =? open) with false. change (32 =? close) with false.
  change ((32 =? sp) && (0 =? 0)) with true. cbn iota. f_equal.
  rewrite parts_outer by auto. rewrite IH. rewrite app_nil_r, rev_involutive. reflexivity.
Qed.
Lemma get_parts_node f args : proper (Node f args) -> get_parts (print (Node f args)) = Some (f :: map print args).
Proof.
  intros H. apply proper_node in H. destruct H as (Hf & Hn & _ & Ha).
  unfold get_parts. change (print (Node f args)) with (open :: f ++ spaced (map print args) ++ [close]).
  cbn [tl]. rewrite app_assoc, removelast_last.
  destruct args as [|x l]; [contradiction|]. inversion Ha; subst.
  cbn [map spaced]. change 32 with sp. rewrite cut_symbol by assumption. cbn [option_map fst snd].
  rewrite parts_outer by assumption. rewrite parts_spaced by assumption.
  now rewrite app_nil_r, rev_involutive.
Qed.

Lemma print_head v : proper v -> exists c r, print v = c :: r /\ (c = open <-> exists f args, v = Node f args).
Proof.
  destruct v as [a|f args]; intros H.
  - destruct H as [Hn H]. destruct a as [|c a]; [contradiction|]. exists c, a. split; auto.
    split; [|intros (f & args & E); discriminate]. intros ->. destruct (H open (or_introl eq_refl)) as (_ & X & _). contradiction.
  - exists open, (f ++ spaced (map print args) ++ [close]). split; auto. split; eauto.
Qed.
Lemma print_inj v : forall w, proper v -> proper w -> print v = print w -> v = w.
Proof.
  induction v as [a|f args IH] using sexp_ind'; intros w Hv Hw E.
  - destruct w as [b|g l]; [simpl in E; congruence|].
    destruct (print_head _ Hv) as (c & r & E1 & X1). destruct (print_head _ Hw) as (d & r' & E2 & X2).
    rewrite E, E2 in E1. injection E1 as <- <-.
    destruct (proj1 X1) as (f & args & F); [apply X2; eauto|discriminate].
  - destruct w as [b|g l].
    { destruct (print_head _ Hv) as (c & r & E1 & X1). destruct (print_head _ Hw) as (d & r' & E2 & X2).
      rewrite E, E2 in E1. injection E1 as <- <-.
      destruct (proj1 X2) as (f' & args' & F); [apply X1; eauto|discriminate]. }
    pose proof (get_parts_node _ _ Hv) as P1. pose proof (get_parts_node _ _ Hw) as P2.
    rewrite E, P2 in P1. injection P1 as -> M.
    apply proper_node in Hv. destruct Hv as (_ & _ & _ & Ha). apply proper_node in Hw. destruct Hw as (_ & _ & _ & Hb).
    f_equal. clear E P2. revert l M Hb. induction args as [|x args IHa]; intros [|y l] M Hb; try discriminate; auto.
    simpl in M. injection M as M1 M2. inversion IH; inversion Ha; inversion Hb; subst. f_equal; auto.
Qed.
Lemma map_print_inj l : forall l', Forall proper l -> Forall proper l' -> map print l = map print l' -> l = l'.
Proof.
  induction l as [|x l IH]; intros [|y l'] A B E; try discriminate; auto.
  simpl in E. injection E as E1 E2. inversion A; inversion B; subst. f_equal; auto using print_inj.
Qed.
Lemma map_norm l : Forall proper l -> map norm (map print l) = map print l.
Proof. induction 1; auto. simpl. rewrite norm_print by auto. congruence. Qed.

(** ** Entries *)
Lemma find_entry_in (m : smodel) f e : NoDup (map fst m) -> (find_entry (print_model m) f = Some e <-> exists s, In (f, s) m /\ e = print_entry s).
Proof.
  intros H. induction m as [|[g s] m IH]; simpl.
  - split; [discriminate|]. intros (s & [] & _).
  - inversion H; subst. destruct (seqb g f) eqn:E.
    + apply seqb_spec in E. subst. split.
      * intros X. injection X as <-. eauto.
      * intros (s' & [X|X] & ->); [congruence|]. exfalso. apply H2. apply in_map_iff. now exists (f, s').
    + apply seqb_false in E. rewrite IH by auto. split.
      * intros (s' & X & ->). eauto.
      * intros (s' & [X|X] & ->); [congruence|eauto].
Qed.
Lemma find_entry_none (m : smodel) f : find_entry (print_model m) f = None <-> ~ present m f.
Proof.
  induction m as [|[g s] m IH]; simpl.
  - split; auto. intros _ [e []].
  - destruct (seqb g f) eqn:E.
    + apply seqb_spec in E. subst. split; [discriminate|]. intros X. exfalso. apply X. exists s. now left.
    + apply seqb_false in E. rewrite IH. split; intros X [e Y].
      * destruct Y as [Y|Y]; [congruence|]. apply X. now exists e.
      * apply X. exists e. now right.
Qed.
Lemma find_row_print rows vs : NoDup (map fst rows) ->
  (forall k v, In (k, v) rows -> Forall proper k) -> Forall proper vs ->
  match find_row (map (fun r => (map print (fst r), print (snd r))) rows) (map print vs) with
  | Some s => exists v, In (vs, v) rows /\ s = print v
  | None => forall v, ~ In (vs, v) rows
  end.
Proof.
  intros H K V. induction rows as [|[k v] rows IH]; simpl; auto.
  inversion H; subst. destruct (seqsb (map print k) (map print vs)) eqn:E.
  - apply seqsb_spec in E. apply map_print_inj in E; auto; [|apply (K k v); now left]. subst. eauto.
  - assert (N : k <> vs).
    { intros ->. assert (X : seqsb (map print vs) (map print vs) = true) by now apply seqsb_spec. congruence. }
    specialize (IH H3 (fun k' v' Y => K k' v' (or_intror Y))). destruct (find_row _ _).
    + destruct IH as (w & X & ->); eauto.
    + intros w [X|X]; [congruence|]. apply (IH w X).
Qed.
Lemma row_fun rows (k : list sexp) (v w : sexp) : NoDup (map fst rows) -> In (k, v) rows -> In (k, w) rows -> v = w.
Proof.
  intros H. induction rows as [|[k' v'] rows IH]; intros A B; [destruct A|].
  inversion H; subst. destruct A as [A|A], B as [B|B]; try congruence; auto.
  - injection A as -> ->. exfalso. apply H2. apply in_map_iff. now exists (k, w).
  - injection B as -> ->. exfalso. apply H2. apply in_map_iff. now exists (k, v).
Qed.
Lemma applies_proper e vs v : proper_entry e -> applies e vs v -> proper v.
Proof.
  destruct e as [w|rows els]; simpl.
  - intros H [_ ->]. auto.
  - intros (A & B & C) [X|[X ->]]; auto. exact (proj1 (C _ _ X)).
Qed.
Lemma func_value_print m f e vs : proper_model m -> In (f, e) m -> Forall proper vs ->
  forall s, func_value (print_model m) f (map print vs) = Ok s <-> exists v, applies e vs v /\ s = print v.
Proof.
  intros [Hn Hp] Hin Hv s. unfold func_value.
  assert (F : find_entry (print_model m) f = Some (print_entry e)) by (apply find_entry_in; eauto).
  rewrite F. specialize (Hp _ _ Hin). destruct e as [w|rows els]; simpl.
  - destruct vs as [|x vs]; simpl.
    + split.
      * intros X. injection X as <-. eauto.
      * intros (v & [_ ->] & ->). reflexivity.
    + split; [discriminate|]. intros (v & [X _] & _). discriminate.
  - rewrite map_norm by assumption. destruct Hp as (Pe & Nd & Pr).
    pose proof (find_row_print rows vs Nd) as R. specialize (R (fun k v X => proj2 (Forall_forall _ _) (proj2 (Pr k v X))) Hv).
    destruct (find_row _ _).
    + destruct R as (v & X & ->). split.
      * intros Y. injection Y as <-. eauto.
      * intros (w & [Y|[Y ->]] & ->); [|exfalso; eapply Y; eauto]. now rewrite (row_fun rows vs v w Nd X Y).
    + split.
      * intros Y. injection Y as <-. eauto.
      * intros (w & [Y|[Y ->]] & ->); [exfalso; eapply R; eauto|]. reflexivity.
Qed.

Lemma brackets_angle f : brackets f = map angle f.
Proof.
  unfold brackets. apply map_ext. intros c. unfold angle.
  destruct (Z.eqb_spec c 91) as [->|A]; auto. destruct (Z.eqb_spec c 93) as [->|B]; auto.
  destruct c as [|p|p]; auto.
  repeat (destruct p as [p|p|]; try reflexivity; try (exfalso; first [exact (A eq_refl) | exact (B eq_refl)])).
Qed.
Lemma fun_name_entry m f e : NoDup (map fst m) -> (entry_of m f e <-> In (fun_name (print_model m) f, e) m).
Proof.
  intros Hn. unfold fun_name, entry_of, limited. rewrite brackets_angle.
  destruct (find_entry (print_model m) (f ++ lit "%limited")) as [x|] eqn:E1.
  - apply find_entry_in in E1; auto. destruct E1 as (s & X & _).
    assert (P : present m (f ++ lit "%limited")) by (now exists s). tauto.
  - apply find_entry_none in E1.
    assert (N : ~ In (f ++ lit "%limited", e) m) by (intros X; apply E1; now exists e).
    destruct (find_entry (print_model m) f) as [x|] eqn:E2.
    + apply find_entry_in in E2; auto. destruct E2 as (s & X & _).
      assert (P : present m f) by (now exists s). tauto.
    + apply find_entry_none in E2. assert (N' : ~ In (f, e) m) by (intros X; apply E2; now exists e). tauto.
Qed.

(** ** Integers *)
Lemma lit_cons c s : lit (String c s) = Z.of_N (N_of_ascii c) :: lit s.
Proof. reflexivity. Qed.
Lemma digits_of_uint d : forall c, In c (lit (NilEmpty.string_of_uint d)) -> 48 <= c <= 57.
Proof.
  induction d; intros c H; [destruct H|..];
  (change (NilEmpty.string_of_uint _) with (String "0" (NilEmpty.string_of_uint d)) in H ||
   change (NilEmpty.string_of_uint _) with (String "1" (NilEmpty.string_of_uint d)) in H ||
   change (NilEmpty.string_of_uint _) with (String "2" (NilEmpty.string_of_uint d)) in H ||
   change (NilEmpty.string_of_uint _) with (String "3" (NilEmpty.string_of_uint d)) in H ||
   change (NilEmpty.string_of_uint _) with (String "4" (NilEmpty.string_of_uint d)) in H ||
   change (NilEmpty.string_of_uint _) with (String "5" (NilEmpty.string_of_uint d)) in H ||
   change (NilEmpty.string_of_uint _) with (String "6" (NilEmpty.string_of_uint d)) in H ||
   change (NilEmpty.string_of_uint _) with (String "7" (NilEmpty.string_of_uint d)) in H ||
   change (NilEmpty.string_of_uint _) with (String "8" (NilEmpty.string_of_uint d)) in H ||
   change (NilEmpty.string_of_uint _) with (String "9" (NilEmpty.string_of_uint d)) in H);
  rewrite lit_cons in H; destruct H as [<-|H]; auto; vm_compute; split; discriminate.
Qed.
Lemma digits_zero d c : In c (lit (NilZero.string_of_uint d)) -> 48 <= c <= 57.
Proof.
  destruct d; try apply digits_of_uint. simpl. intros [<-|[]]. lia.
Qed.
Lemma nonempty_zero d : lit (NilZero.string_of_uint d) <> [].
Proof. destruct d; discriminate. Qed.
Fixpoint zval (acc : Z) (d : Decimal.uint) : Z :=
  match d with
  | Decimal.Nil => acc
  | Decimal.D0 d => zval (acc * 10 + 0) d | Decimal.D1 d => zval (acc * 10 + 1) d | Decimal.D2 d => zval (acc * 10 + 2) d
  | Decimal.D3 d => zval (acc * 10 + 3) d | Decimal.D4 d => zval (acc * 10 + 4) d | Decimal.D5 d => zval (acc * 10 + 5) d
  | Decimal.D6 d => zval (acc * 10 + 6) d | Decimal.D7 d => zval (acc * 10 + 7) d | Decimal.D8 d => zval (acc * 10 + 8) d
  | Decimal.D9 d => zval (acc * 10 + 9) d
  end.
Lemma dig_uint d : forall acc, dig acc false (lit (NilEmpty.string_of_uint d)) = Some (zval acc d).
Proof. induction d; intros acc; auto; simpl NilEmpty.string_of_uint; rewrite lit_cons; cbn [dig zval]; apply IHd. Qed.
Lemma dig_zero d : dig 0 true (lit (NilZero.string_of_uint d)) = Some (zval 0 d).
Proof. destruct d; try reflexivity; simpl NilZero.string_of_uint; rewrite lit_cons; cbn [dig zval]; apply dig_uint. Qed.
Lemma zval_pos d : forall p, zval (Zpos p) d = Zpos (Pos.of_uint_acc d p).
Proof.
  induction d; intros p; auto; cbn [zval Pos.of_uint_acc];
  rewrite <- IHd; f_equal; lia.
Qed.
Lemma zval_zero d : zval 0 d = Z.of_N (Pos.of_uint d).
Proof. induction d; auto; cbn [zval Pos.of_uint]; try exact IHd; simpl Z.of_N; rewrite <- zval_pos; reflexivity. Qed.

Lemma strip_left_id s : (forall c, In c s -> is_space c = false) -> strip_left s = s.
Proof. destruct s as [|c s]; auto. intros H. simpl. now rewrite (H c (or_introl eq_refl)). Qed.
Lemma strip_id s : (forall c, In c s -> is_space c = false) -> strip s = s.
Proof.
  intros H. unfold strip. rewrite (strip_left_id s H). rewrite strip_left_id; [apply rev_involutive|].
  intros c Hc. apply H. now apply in_rev.
Qed.
Lemma digit_not_space c : 48 <= c <= 57 -> is_space c = false.
Proof. intros H. unfold is_space. apply orb_false_iff. split; apply andb_false_iff; right; apply Z.leb_gt; lia. Qed.
Lemma py_int_zero d : py_int (lit (NilZero.string_of_uint d)) = Some (zval 0 d).
Proof.
  unfold py_int. rewrite strip_id by (intros c Hc; apply digit_not_space; eapply digits_zero; eauto).
  pose proof (digits_zero d) as D. pose proof (nonempty_zero d) as N. pose proof (dig_zero d) as G.
  destruct (lit (NilZero.string_of_uint d)) as [|c r]; [contradiction|].
  specialize (D c (or_introl eq_refl)).
  destruct (Z.eqb_spec c 45); [lia|]. destruct (Z.eqb_spec c 43); [lia|]. exact G.
Qed.
Lemma show_nonneg z : 0 <= z -> exists d, show z = lit (NilZero.string_of_uint d) /\ zval 0 d = z.
Proof.
  intros H. pose proof (DecimalZ.of_to z) as E. unfold show. destruct (Z.to_int z) as [d|d] eqn:F.
  - exists d. split; auto. rewrite zval_zero. exact E.
  - destruct z; try discriminate. lia.
Qed.
Lemma show_neg z : z < 0 -> exists d, show z = 45 :: lit (NilZero.string_of_uint d) /\ zval 0 d = - z.
Proof.
  intros H. pose proof (DecimalZ.of_to z) as E. unfold show. destruct (Z.to_int z) as [d|d] eqn:F.
  - destruct z; try discriminate; exfalso; lia.
  - exists d. split; auto. rewrite zval_zero. simpl in E. unfold Z.of_uint in E. lia.
Qed.
Lemma parse_digits d : parse_int (lit (NilZero.string_of_uint d)) = Val (zval 0 d).
Proof.
  pose proof (py_int_zero d) as G. pose proof (digits_zero d) as D.
  unfold parse_int. destruct (lit (NilZero.string_of_uint d)) as [|a [|b r]].
  - now rewrite G.
  - now rewrite G.
  - pose proof (D a (or_introl eq_refl)). destruct (Z.eqb_spec a open) as [->|]; [unfold open in *; lia|]. cbn [andb]. now rewrite G.
Qed.
Lemma last_app (A : Type) (l : list A) x d : last (l ++ [x]) d = x.
Proof. induction l as [|y l IH]; auto. simpl. rewrite IH. destruct l; reflexivity. Qed.
Lemma parse_show z : parse_int (show z) = Val z.
Proof.
  destruct (Z_lt_le_dec z 0) as [H|H].
  - destruct (show_neg z H) as (d & -> & E). pose proof (digits_zero d) as D. pose proof (dig_zero d) as G.
    assert (P : py_int (45 :: lit (NilZero.string_of_uint d)) = Some z).
    { unfold py_int. rewrite strip_id.
      - rewrite Z.eqb_refl, G. simpl. f_equal. lia.
      - intros c [<-|Hc]; auto. apply digit_not_space. eauto. }
    unfold parse_int. rewrite P. destruct (lit (NilZero.string_of_uint d)); reflexivity.
  - destruct (show_nonneg z H) as (d & -> & E). rewrite parse_digits. congruence.
Qed.
Lemma parse_value z : parse_int (print (int_value z)) = Val z.
Proof.
  unfold int_value. destruct (Z.leb_spec 0 z) as [H|H].
  - apply parse_show.
  - destruct (show_nonneg (- z)) as (d & S & E); [lia|]. cbn [print map spaced]. rewrite S.
    change (40 :: lit "-" ++ (32 :: lit (NilZero.string_of_uint d) ++ []) ++ [41])
      with (40 :: 45 :: ((32 :: lit (NilZero.string_of_uint d) ++ []) ++ [41])).
    rewrite app_nil_r. unfold parse_int.
    replace (last (40 :: 45 :: (32 :: lit (NilZero.string_of_uint d)) ++ [41]) 0) with 41
      by (change (40 :: 45 :: (32 :: lit (NilZero.string_of_uint d)) ++ [41]) with ((40 :: 45 :: 32 :: lit (NilZero.string_of_uint d)) ++ [41]); now rewrite last_app).
    change ((40 =? open) && (45 =? 45) && (41 =? close)) with true. cbn iota.
    rewrite removelast_last.
    assert (P : py_int (32 :: lit (NilZero.string_of_uint d)) = py_int (lit (NilZero.string_of_uint d))) by reflexivity.
    rewrite P, py_int_zero. f_equal. lia.
Qed.

(** Only integers are shown as integers. *)
Definition int_char (c : Z) : Prop := 48 <= c <= 57 \/ c = 95 \/ c = 43 \/ c = 45.
Lemma dig_chars s : forall acc b z, dig acc b s = Some z -> forall c, In c s -> int_char c.
Proof.
  induction s as [|x s IH]; intros acc b z H c Hc; [destruct Hc|]. simpl in H.
  destruct (is_digit x) eqn:E.
  - destruct Hc as [<-|Hc]; [|eapply IH; eauto]. left. unfold is_digit in E. apply andb_true_iff in E. lia.
  - destruct ((x =? 95) && negb b) eqn:F; [|discriminate]. apply andb_true_iff in F. destruct F as [F _]. apply Z.eqb_eq in F.
    destruct Hc as [<-|Hc]; [|eapply IH; eauto]. right; left; auto.
Qed.
Lemma py_int_chars s z : py_int s = Some z -> forall c, In c (strip s) -> int_char c.
Proof.
  unfold py_int. destruct (strip s) as [|x r]; [discriminate|]. intros H c Hc.
  destruct (Z.eqb_spec x 45) as [E|E].
  - destruct (dig 0 true r) eqn:D; [|discriminate]. destruct Hc as [<-|Hc]; [right; right; right; auto|eapply dig_chars; eauto].
  - destruct (Z.eqb_spec x 43) as [E'|E'].
    + destruct Hc as [<-|Hc]; [right; right; left; auto|eapply dig_chars; eauto].
    + eapply dig_chars; eauto.
Qed.
Lemma strip_left_in c s : is_space c = false -> In c s -> In c (strip_left s).
Proof.
  intros H. induction s as [|x s IH]; auto. simpl. destruct (is_space x) eqn:E; auto.
  intros [->|X]; [congruence|auto].
Qed.
Lemma strip_in c s : is_space c = false -> In c s -> In c (strip s).
Proof. intros H X. unfold strip. apply in_rev. rewrite rev_involutive. apply strip_left_in; auto. rewrite <- in_rev. now apply strip_left_in. Qed.
(** A space between two other characters stays. *)
Lemma strip_left_app a s : is_space a = false -> forall l, exists l', strip_left (l ++ a :: s) = l' ++ a :: s.
Proof.
  intros H. induction l as [|x l [l' IH]]; simpl.
  - rewrite H. now exists [].
  - destruct (is_space x); [eauto|]. now exists (x :: l).
Qed.
Lemma strip_inner a b x y w : is_space a = false -> is_space b = false -> In sp (strip (x ++ a :: w ++ sp :: y ++ [b])).
Proof.
  intros Ha Hb. unfold strip. destruct (strip_left_app a (w ++ sp :: y ++ [b]) Ha x) as [l' ->].
  rewrite <- in_rev.
  replace (rev (l' ++ a :: w ++ sp :: y ++ [b])) with (b :: rev y ++ sp :: rev (l' ++ a :: w)).
  2: { replace (l' ++ a :: w ++ sp :: y ++ [b]) with ((l' ++ a :: w) ++ sp :: y ++ [b]) by (rewrite <- app_assoc; reflexivity).
       rewrite (rev_app_distr (l' ++ a :: w)). cbn [rev]. rewrite (rev_app_distr y [b]).
       cbn [rev app]. rewrite <- app_assoc. reflexivity. }
  simpl. rewrite Hb. right. apply in_or_app. right. now left.
Qed.
Lemma print_last v : proper v -> exists r c, print v = r ++ [c] /\ is_space c = false.
Proof.
  destruct v as [a|f args]; intros H.
  - destruct H as [Hn H]. destruct (exists_last Hn) as (r & c & E). simpl. exists r, c. split; auto.
    apply H. rewrite E. apply in_or_app. right. now left.
  - exists (open :: f ++ spaced (map print args)), close. split; auto. simpl. now rewrite <- app_assoc.
Qed.
Lemma spaced_last l : l <> [] -> Forall proper l -> exists r c, spaced (map print l) = sp :: r ++ [c] /\ is_space c = false.
Proof.
  intros Hn H. destruct l as [|x l]; [contradiction|]. clear Hn. revert x H. induction l as [|y l IH]; intros x H; inversion H; subst.
  - destruct (print_last x H2) as (r & c & E & Hc). exists r, c. simpl. rewrite app_nil_r, E. auto.
  - destruct (IH y H3) as (r & c & E & Hc). change (spaced (map print (x :: y :: l))) with (sp :: print x ++ spaced (map print (y :: l))).
    rewrite E. exists (print x ++ sp :: r), c. split; auto. f_equal. rewrite <- app_assoc. reflexivity.
Qed.
Lemma parse_only v z : proper v -> parse_int (print v) = Val z ->
  exists a, (v = Atom a \/ v = Node (lit "-") [Atom a]) /\ forall c, In c a -> int_char c.
Proof.
  intros Hv H. destruct v as [a|f args].
  - exists a. split; auto. destruct Hv as [Hn Hs]. simpl print in H.
    assert (P : py_int a = Some z).
    { unfold parse_int in H. destruct a as [|x [|y r]].
      - contradiction.
      - destruct (py_int [x]); congruence.
      - destruct (Z.eqb_spec x open) as [E|E].
        + destruct (Hs x (or_introl eq_refl)) as (_ & N & _). contradiction.
        + cbn [andb] in H. destruct (py_int (x :: y :: r)); congruence. }
    intros c Hc. apply (py_int_chars a z P). apply strip_in; auto. now apply Hs.
  - apply proper_node in Hv. destruct Hv as ((Hn & Hf) & Ha & _ & Hp).
    destruct f as [|g f]; [contradiction|].
    change (print (Node (g :: f) args)) with (open :: g :: f ++ spaced (map print args) ++ [close]) in H.
    destruct (spaced_last args Ha Hp) as (r & c & E & Hc).
    assert (F : forall s, ~ (py_int s = Some z) \/ (forall c, In c (strip s) -> int_char c)).
    { intros s. destruct (py_int s) as [z'|] eqn:Q; [right|left; discriminate]. eapply py_int_chars; eauto. }
    unfold parse_int in H.
    assert (L : last (open :: g :: f ++ spaced (map print args) ++ [close]) 0 = close).
    { change (open :: g :: f ++ spaced (map print args) ++ [close]) with ((open :: g :: f) ++ spaced (map print args) ++ [close]).
      rewrite app_assoc. apply last_app. }
    rewrite L in H. change (open =? open) with true in H. change (close =? close) with true in H. rewrite andb_true_r in H. cbn [andb] in H.
    destruct (Z.eqb_spec g 45) as [G|G].
    + subst g. rewrite app_assoc, removelast_last in H.
      destruct (py_int (f ++ spaced (map print args))) as [z'|] eqn:Q; [|discriminate].
      pose proof (py_int_chars _ _ Q) as C.
      destruct f as [|g f].
      * destruct args as [|x [|y args]]; [contradiction| |].
        -- inversion Hp; subst. destruct x as [a|g' l].
           ++ exists a. split; auto. intros d Hd. apply C. apply strip_in; [apply H2; auto|]. simpl. right. rewrite app_nil_r. auto.
           ++ exfalso. assert (X : int_char open).
              { apply C. apply strip_in; auto. simpl. right. left. auto. }
              unfold int_char, open in X. lia.
        -- exfalso. inversion Hp; subst. destruct (print_head x H2) as (d & r' & Ex & _).
           assert (Hd : is_space d = false).
           { pose proof (cl_print x H2) as K. rewrite Ex in K. simpl in K. destruct (Z.eqb_spec d sp); [discriminate|].
             apply andb_true_iff in K. destruct K as [K _]. now apply negb_true_iff in K. }
           destruct (spaced_last (y :: args)) as (r2 & c2 & E2 & Hc2); [discriminate|auto|].
           assert (X : int_char sp).
           { apply C. change ([] ++ spaced (map print (x :: y :: args))) with (sp :: print x ++ spaced (map print (y :: args))).
             rewrite Ex, E2. apply (strip_inner d c2 [sp] r2 r'); auto. }
           unfold int_char, sp in X. lia.
      * exfalso. assert (X : int_char sp).
        { apply C. rewrite E. rewrite <- app_comm_cons. apply (strip_inner g c [] r f); auto. apply Hf. right. now left. }
        unfold int_char, sp in X. lia.
    + exfalso. destruct (py_int (open :: g :: f ++ spaced (map print args) ++ [close])) as [z'|] eqn:Q; [|discriminate].
      pose proof (py_int_chars _ _ Q open) as C. assert (X : int_char open) by (apply C; apply strip_in; auto; now left).
      unfold int_char, open in X. lia.
Qed.

Lemma show_symbol z : 0 <= z -> symbol (show z).
Proof.
  intros H. destruct (show_nonneg z H) as (d & -> & _). split; [apply nonempty_zero|].
  intros c Hc. apply digits_zero in Hc. split; [now apply digit_not_space|]. split; lia.
Qed.

(** ** Values of terms *)
Lemma lit_symbol s : forallb (fun c => negb (is_space c) && negb (c =? 40) && negb (c =? 41)) (lit s) = true -> lit s <> [] -> symbol (lit s).
Proof.
  intros H N. split; auto. intros c Hc. rewrite forallb_forall in H. specialize (H c Hc).
  apply andb_true_iff in H. destruct H as [H H3]. apply andb_true_iff in H. destruct H as [H1 H2].
  apply negb_true_iff in H1, H2, H3. apply Z.eqb_neq in H2, H3. auto.
Qed.
Lemma unit_symbol : symbol unit_.
Proof. apply lit_symbol; [reflexivity|discriminate]. Qed.
Lemma combine_symbol : symbol combine_.
Proof. apply lit_symbol; [reflexivity|discriminate]. Qed.

Definition values (m : smodel) := fix all (l : list term) (vs : list sexp) : Prop :=
  match l, vs with [], [] => True | a :: l', x :: vs' => value m a x /\ all l' vs' | _, _ => False end.
Definition evaluates (m : model) := fix all (l : list term) : outcome + list str :=
  match l with
  | [] => inr []
  | a :: l' => match evaluate m a with
               | Ok s => match all l' with inr r => inr (s :: r) | inl o => inl o end
               | o => inl o
               end
  end.
Lemma evaluates_not_ok m l s : evaluates m l <> inl (Ok s).
Proof.
  induction l as [|a l IH]; simpl; [discriminate|]. destruct (evaluate m a); try discriminate.
  destruct (evaluates m l); congruence.
Qed.
Lemma simple_app f args : simple (TApp f args) <-> f <> str_create /\ Forall simple args.
Proof.
  simpl. assert (H : (fix all (l : list term) : Prop := match l with [] => True | a :: l' => simple a /\ all l' end) args <-> Forall simple args).
  { induction args as [|x l IH]; split; intros H; auto.
    - destruct H as [H K]. constructor; auto. now apply IH.
    - inversion H; subst. split; auto. now apply IH. }
  rewrite H. reflexivity.
Qed.

Lemma starts_app p s : starts p (p ++ s) = true.
Proof. induction p as [|c p IH]; auto. simpl. now rewrite Z.eqb_refl. Qed.
Lemma starts_eq p : forall s, starts p s = true -> exists r, s = p ++ r.
Proof.
  induction p as [|c p IH]; intros s H; [now exists s|]. destruct s as [|d s]; [discriminate|]. simpl in H.
  apply andb_true_iff in H. destruct H as [H K]. apply Z.eqb_eq in H. destruct (IH s K) as [r ->]. exists r. subst. reflexivity.
Qed.
Lemma starts_node v : proper v -> starts (open :: combine_ ++ [sp]) (print v) = true -> exists x y, v = Node combine_ [x; y].
Proof.
  intros H S. destruct (starts_eq _ _ S) as [r E]. destruct v as [a|f args].
  - exfalso. destruct H as [Hn Hs]. simpl in E. subst a. destruct (Hs open (or_introl eq_refl)) as (_ & N & _). contradiction.
  - apply proper_node in H. destruct H as (Hf & Ha & Hc & Hp).
    change (print (Node f args)) with (open :: f ++ spaced (map print args) ++ [close]) in E.
    destruct args as [|x l]; [contradiction|].
    apply (f_equal (@tl Z)) in E. change (f ++ spaced (map print (x :: l)) ++ [close] = (combine_ ++ [sp]) ++ r) in E.
    assert (C : cut (f ++ spaced (map print (x :: l)) ++ [close]) = cut ((combine_ ++ [sp]) ++ r)) by (rewrite E; reflexivity).
    rewrite <- app_assoc in C. change ([sp] ++ r) with (sp :: r) in C. rewrite (cut_symbol combine_) in C by apply combine_symbol.
    change (spaced (map print (x :: l)) ++ [close]) with (sp :: (print x ++ spaced (map print l)) ++ [close]) in C.
    rewrite cut_symbol in C by assumption. injection C as C _. subst f.
    specialize (Hc eq_refl). destruct l as [|y [|? ?]]; try discriminate. eauto.
Qed.

Section Eval.
  Variable m : smodel.
  Hypothesis Hm : proper_model m.

  Definition good (t : term) : Prop :=
    simple t -> (forall v, value m t v -> proper v) /\ forall s, evaluate (print_model m) t = Ok s <-> exists v, value m t v /\ s = print v.

  Lemma args_good args : Forall good args -> Forall simple args ->
    (forall vs, values m args vs -> Forall proper vs) /\
    (forall ss, evaluates (print_model m) args = inr ss <-> exists vs, values m args vs /\ ss = map print vs).
  Proof.
    induction args as [|a args IH]; intros G S.
    - split.
      + intros [|v vs] H; [constructor|destruct H].
      + intros ss. simpl. split.
        * intros H. injection H as <-. exists []. split; simpl; auto.
        * intros ([|v vs] & H & ->); [reflexivity|destruct H].
    - inversion G; inversion S; subst. destruct (H1 H5) as [P E]. destruct (IH H2 H6) as [Ps Es]. split.
      + intros [|v vs] H; [destruct H|]. destruct H as [H K]. constructor; auto.
      + intros ss. simpl. split.
        * intros H. destruct (evaluate (print_model m) a) as [s| |] eqn:F; try discriminate.
          destruct (evaluates (print_model m) args) as [o|ss'] eqn:F'; try discriminate. injection H as <-.
          destruct (proj1 (E s) eq_refl) as (v & V & ->). destruct (proj1 (Es ss') eq_refl) as (vs & Vs & ->).
          exists (v :: vs). split; [split|]; auto.
        * intros ([|v vs] & H & ->); [destruct H|]. destruct H as [H K].
          rewrite (proj2 (E (print v))) by eauto. rewrite (proj2 (Es (map print vs))) by eauto. reflexivity.
  Qed.

  Lemma const_good f : (forall v, In (f, SConst v) m -> proper v) /\
    forall s, find_entry (print_model m) f = Some (Const s) <-> exists v, In (f, SConst v) m /\ s = print v.
  Proof.
    split.
    - intros v H. exact (proj2 Hm _ _ H).
    - intros s. rewrite find_entry_in by apply Hm. split.
      + intros ([v|rows els] & H & E); [|discriminate]. injection E as ->. eauto.
      + intros (v & H & ->). exists (SConst v). auto.
  Qed.

  Lemma part_good a k : good a -> simple a -> (k = 1%nat \/ k = 2%nat) -> forall s,
    (match evaluate (print_model m) a with Ok s => part k s | o => o end) = Ok s <->
    exists x y, value m a (Node combine_ [x; y]) /\ s = print (if Nat.eqb k 1 then x else y).
  Proof.
    intros G S Hk s. destruct (G S) as [P E]. split.
    - intros H. destruct (evaluate (print_model m) a) as [s'| |] eqn:F; try discriminate.
      destruct (proj1 (E s') eq_refl) as (v & V & ->). unfold part in H.
      destruct (starts _ _) eqn:St; [|discriminate]. destruct (starts_node v (P v V) St) as (x & y & ->).
      rewrite get_parts_node in H by auto. exists x, y. split; auto.
      destruct Hk as [-> | ->]; simpl in *; congruence.
    - intros (x & y & V & ->). rewrite (proj2 (E _)) by (eexists; split; eauto).
      unfold part.
      assert (St : starts (open :: combine_ ++ [sp]) (print (Node combine_ [x; y])) = true).
      { change (print (Node combine_ [x; y])) with ((open :: combine_ ++ [sp]) ++ (print x ++ spaced [print y]) ++ [close]).
        apply starts_app. }
      rewrite St, get_parts_node by auto. destruct Hk as [-> | ->]; reflexivity.
  Qed.

  Lemma all_good t : good t.
  Proof.
    destruct Hm as [Hn Hp].
    induction t as [|z| |x|f args IH|a b IHa IHb|a IHa|a IHa|from to a IHa| |a IHa|a b IHa IHb] using term_ind'; intros S.
    - split; [intros v ->; apply unit_symbol|]. intros s. simpl. split.
      + intros H. injection H as <-. eexists. split; reflexivity.
      + intros (v & -> & ->). reflexivity.
    - simpl in S. assert (E : int_value z = Atom (show z)) by (unfold int_value; destruct (Z.leb_spec 0 z); [auto|lia]).
      split; [intros v ->; rewrite E; now apply show_symbol|]. intros s. simpl. rewrite E. split.
      + intros H. injection H as <-. eexists. split; reflexivity.
      + intros (v & -> & ->). reflexivity.
    - destruct (const_good null_) as [P E]. split; [exact P|]. intros s. simpl.
      change (lit "$Ref.null") with null_. rewrite <- E. destruct (find_entry (print_model m) null_) as [[w|? ?]|]; split; intros H; congruence.
    - destruct (const_good x) as [P E]. split; [exact P|]. intros s. simpl.
      rewrite <- E. destruct (find_entry (print_model m) x) as [[w|? ?]|]; split; intros H; congruence.
    - apply simple_app in S. destruct S as [Sf Sa]. destruct (args_good args IH Sa) as [Ps Es]. split.
      + intros v (vs & e & V & En & Ap). apply fun_name_entry in En; auto. exact (applies_proper _ _ _ (Hp _ _ En) Ap).
      + intros s. change (evaluate (print_model m) (TApp f args)) with
          (if seqb f str_create then match args with
           | _ :: _ :: a :: _ => match evaluate (print_model m) a with Ok s => Ok ([34] ++ s ++ [34]) | o => o end
           | _ => Crash end
           else match evaluates (print_model m) args with inr vs => func_value (print_model m) (fun_name (print_model m) f) vs | inl o => o end).
        rewrite (proj2 (seqb_false f str_create) Sf). split.
        * intros H. destruct (evaluates (print_model m) args) as [o|ss] eqn:F.
          { subst o. exfalso. eapply evaluates_not_ok; eauto. }
          destruct (proj1 (Es ss) eq_refl) as (vs & V & ->).
          destruct (find_entry (print_model m) (fun_name (print_model m) f)) as [e|] eqn:Fe.
          2: { unfold func_value in H. rewrite Fe in H. discriminate. }
          apply find_entry_in in Fe; auto. destruct Fe as (se & In1 & ->).
          apply (func_value_print m _ se vs Hm In1 (Ps vs V)) in H. destruct H as (v & Ap & ->).
          exists v. split; auto. exists vs, se. split; [exact V|]. split; auto. now apply fun_name_entry.
        * intros (v & (vs & e & V & En & Ap) & ->). change (values m args vs) in V.
          rewrite (proj2 (Es (map print vs))) by eauto. apply fun_name_entry in En; auto.
          apply (func_value_print m _ e vs Hm En (Ps vs V)). eauto.
    - destruct S as [Sa Sb]. destruct (IHa Sa) as [Pa Ea]. destruct (IHb Sb) as [Pb Eb]. split.
      + intros v (x & y & A & B & ->). apply proper_node. split; [apply combine_symbol|]. split; [discriminate|]. split; auto.
      + intros s. simpl. split.
        * intros H. destruct (evaluate (print_model m) a) as [sa| |] eqn:Fa; try discriminate.
          destruct (evaluate (print_model m) b) as [sb| |] eqn:Fb; try discriminate.
          destruct (proj1 (Ea sa) eq_refl) as (x & A & ->). destruct (proj1 (Eb sb) eq_refl) as (y & B & ->).
          exists (Node (lit "$Snap.combine") [x; y]). split; [exists x, y; auto|]. injection H as <-. simpl. rewrite app_nil_r, <- app_assoc. reflexivity.
        * intros (v & (x & y & A & B & ->) & ->). rewrite (proj2 (Ea (print x))) by eauto. rewrite (proj2 (Eb (print y))) by eauto.
          simpl. rewrite app_nil_r, <- app_assoc. reflexivity.
    - destruct (IHa S) as [Pa Ea]. pose proof (part_good a 1 IHa S (or_introl eq_refl)) as G. split.
      + intros v (y & V). apply Pa in V. apply proper_node in V. destruct V as (_ & _ & _ & F). now inversion F.
      + intros s. change (evaluate (print_model m) (TFirst a)) with (match evaluate (print_model m) a with Ok s => part 1 s | o => o end).
        rewrite G. split.
        * intros (x & y & V & ->). exists x. split; auto. now exists y.
        * intros (x & (y & V) & ->). exists x, y. auto.
    - destruct (IHa S) as [Pa Ea]. pose proof (part_good a 2 IHa S (or_intror eq_refl)) as G. split.
      + intros v (y & V). apply Pa in V. apply proper_node in V. destruct V as (_ & _ & _ & F). inversion F. now inversion H2.
      + intros s. change (evaluate (print_model m) (TSecond a)) with (match evaluate (print_model m) a with Ok s => part 2 s | o => o end).
        rewrite G. split.
        * intros (x & y & V & ->). exists y. split; auto. now exists x.
        * intros (y & (x & V) & ->). exists x, y. auto.
    - destruct (IHa S) as [Pa Ea]. split.
      + intros v (x & rows & els & V & En & Ap). exact (applies_proper _ _ _ (Hp _ _ En) Ap).
      + intros s. cbn [evaluate]. split.
        * intros H. destruct (evaluate (print_model m) a) as [sa| |] eqn:Fa; try discriminate.
          destruct (proj1 (Ea sa) eq_refl) as (x & A & ->).
          destruct (find_entry (print_model m) (wrapper from to)) as [e|] eqn:Fe.
          2: { unfold func_value in H. rewrite Fe in H. discriminate. }
          apply find_entry_in in Fe; auto. destruct Fe as (se & In1 & ->).
          change [print x] with (map print [x]) in H.
          apply (func_value_print m _ se [x] Hm In1) in H; [|repeat constructor; auto]. destruct H as (v & Ap & ->).
          destruct se as [w|rows els]; [destruct Ap; discriminate|].
          exists v. split; auto. exists x, rows, els. auto.
        * intros (v & (x & rows & els & V & En & Ap) & ->). rewrite (proj2 (Ea (print x))) by eauto.
          change [print x] with (map print [x]). apply (func_value_print m _ _ [x] Hm En); [repeat constructor; auto|]. eauto.
    - destruct S.
    - destruct S.
    - destruct S.
  Qed.
End Eval.
