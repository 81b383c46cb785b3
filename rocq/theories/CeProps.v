(** Properties of counterexamples. *)
From Coq Require Import List Bool Arith ZArith Lia String.
From Verif Require Import CeModel CeSpec CeProofs CeNameProofs.
Import ListNotations.
Local Open Scope Z_scope.

(** * C66: names of objects *)

(** An object has the same name wherever it is shown. *)
Theorem C66_same_object : forall cname actual l i j v t u,
  nth_error l i = Some (v, t) -> nth_error l j = Some (v, u) ->
  exists n, nth_error (reference_names cname actual [] l) i = Some n /\ nth_error (reference_names cname actual [] l) j = Some n.
Proof. exact same_name. Qed.
Print Assumptions C66_same_object.

(** Two objects of the same type other than None never have the same name. *)
Theorem C66_same_type : forall cname actual l i j v w t u t0 u0 n,
  nth_error l i = Some (v, t) -> nth_error l j = Some (w, u) -> v <> w ->
  declared l v t0 -> declared l w u0 ->
  nth_error (reference_names cname actual [] l) i = Some n -> nth_error (reference_names cname actual [] l) j = Some n ->
  resolved actual v t0 <> resolved actual w u0 \/ is_none cname actual v t0 /\ is_none cname actual w u0.
Proof. exact same_type. Qed.
Print Assumptions C66_same_type.

(** Names identify objects if the names of types are clear. Missing: other names of types,
    see the theorems below. *)
Theorem C66_names_partial : forall cname actual l i j v w t u n n',
  clear cname actual l -> nth_error l i = Some (v, t) -> nth_error l j = Some (w, u) ->
  nth_error (reference_names cname actual [] l) i = Some n -> nth_error (reference_names cname actual [] l) j = Some n' ->
  (n = n' <-> v = w).
Proof. exact distinct. Qed.
Print Assumptions C66_names_partial.

(** Two cells, a list of cells and None. *)
Definition ex_cname (c : nat) : str :=
  match c with 0 => lit "Cell" | 1 => lit "list" | 2 => lit "NoneType" | 3 => lit "object" | 4 => lit "Cell" | _ => lit "Cell1" end%nat.
Definition ex_actual (v : str) (t : ty) : option ty :=
  match v with
  | [1] | [2] => Some (TC 0) | [3] => Some (TG 1 [TC 0]) | [4] => Some (TC 2)
  | [5] => Some (TC 4) | [6] => Some (TC 5)
  | _ => None
  end.
Example C66_example :
  reference_names ex_cname ex_actual [] [([1], TC 3); ([2], TC 0); ([3], TC 3); ([1], TC 0); ([4], TC 3); ([9], TC 3)]
  = [lit "Cell0"; lit "Cell1"; lit "list<Cell>0"; lit "Cell0"; lit "None"; lit "?0"].
Proof. reflexivity. Qed.
Example C66_clear : clear ex_cname ex_actual [([1], TC 3); ([2], TC 0); ([3], TC 3); ([1], TC 0); ([4], TC 3); ([9], TC 3)].
Proof.
  assert (N : forall s c, last s 0 = c -> s <> [] -> (c < 48 \/ 57 < c) -> ~ ends_in_digit s).
  { intros s c L Hs Hc (r & d & -> & Hd). rewrite last_app in L. lia. }
  split.
  - intros v t w u a b H K. repeat (destruct H as [H|H]; [injection H as <- <-|]); try destruct H;
    (repeat (destruct K as [K|K]; [injection K as <- <-|]); try destruct K); intros A B E; simpl in A, B; try discriminate;
    injection A as <-; injection B as <-; try reflexivity; discriminate.
  - intros v t a H. repeat (destruct H as [H|H]; [injection H as <- <-|]); try destruct H; intros A; simpl in A; try discriminate;
    injection A as <-; (split; [eapply N; [reflexivity|discriminate|vm_compute; intuition discriminate || (right; reflexivity)]|discriminate]).
  - intros v t w u H K. repeat (destruct H as [H|H]; [injection H as <- <-|]); try destruct H;
    (repeat (destruct K as [K|K]; [injection K as <- <-|]); try destruct K); intros A B; try discriminate; reflexivity.
  - intros v t w u H K (a & A & Na) (b & B & Nb).
    repeat (destruct H as [H|H]; [injection H as <- <-|]); try destruct H; simpl in A; try discriminate; injection A as <-; try discriminate;
    (repeat (destruct K as [K|K]; [injection K as <- <-|]); try destruct K; simpl in B; try discriminate; injection B as <-; try discriminate; reflexivity).
Qed.

(** Objects of two classes with the same name, from different modules, are both called Cell0. *)
Theorem C66_modules_refuted : exists cname actual l v w t u,
  nth_error l 0 = Some (v, t) /\ nth_error l 1 = Some (w, u) /\ v <> w /\ actual v t <> None /\ actual w u <> None /\
  nth_error (reference_names cname actual [] l) 0 = nth_error (reference_names cname actual [] l) 1.
Proof.
  exists ex_cname, ex_actual, [([1], TC 3); ([5], TC 3)], [1], [5], (TC 3), (TC 3).
  split; [reflexivity|]. split; [reflexivity|]. split; [discriminate|]. split; [discriminate|]. split; [discriminate|]. reflexivity.
Qed.
Print Assumptions C66_modules_refuted.

(** The same with classes of different names, Cell and Cell1: the eleventh cell and the first
    object of class Cell1 are both called Cell10. *)
Theorem C66_digits_refuted : exists cname actual l v w t u n i j,
  (forall c d, In c [0; 5]%nat -> In d [0; 5]%nat -> cname c = cname d -> c = d) /\
  (forall x y, In (x, y) l -> exists c, actual x y = Some (TC c) /\ In c [0; 5]%nat) /\
  nth_error l i = Some (v, t) /\ nth_error l j = Some (w, u) /\ v <> w /\
  nth_error (reference_names cname actual [] l) i = Some n /\ nth_error (reference_names cname actual [] l) j = Some n.
Proof.
  exists ex_cname, (fun v _ => match v with [6] => Some (TC 5) | _ => Some (TC 0) end),
    (([6], TC 3) :: map (fun i => ([10 + Z.of_nat i], TC 3)) (seq 0 11)), [20], [6], (TC 3), (TC 3), (lit "Cell10"), 11%nat, 0%nat.
  split.
  { intros c d [<-|[<-|[]]] [<-|[<-|[]]] H; auto; discriminate. }
  split.
  { intros x y H. destruct x as [|z [|? ?]].
    - exists 0%nat. split; [reflexivity|now left].
    - destruct (Z.eq_dec z 6) as [->|N]; [exists 5%nat; split; [reflexivity|right; now left]|].
      destruct z as [|p|p]; try (exists 0%nat; split; [reflexivity|now left]).
      destruct p as [[[p|p|]|[p|p|]|]|[[p|p|]|[p|p|]|]|]; try (exists 0%nat; split; [reflexivity|now left]).
      exfalso. now apply N.
    - exists 0%nat. destruct z as [|[[[p|p|]|[p|p|]|]|[[p|p|]|[p|p|]|]|]|p]; split; (reflexivity || now left). }
  split; [reflexivity|]. split; [reflexivity|]. split; [discriminate|]. split; reflexivity.
Qed.
Print Assumptions C66_digits_refuted.

(** Two objects without a fitting type that are declared with different types are both called ?0. *)
Theorem C66_unknown_refuted : exists cname actual l v w t u,
  nth_error l 0 = Some (v, t) /\ nth_error l 1 = Some (w, u) /\ v <> w /\ t <> u /\ actual v t = None /\ actual w u = None /\
  nth_error (reference_names cname actual [] l) 0 = nth_error (reference_names cname actual [] l) 1.
Proof.
  exists ex_cname, ex_actual, [([8], TC 0); ([9], TC 3)], [8], [9], (TC 0), (TC 3).
  split; [reflexivity|]. split; [reflexivity|]. split; [discriminate|]. split; [discriminate|]. split; [reflexivity|]. split; reflexivity.
Qed.
Print Assumptions C66_unknown_refuted.

(** * C67: values *)

(** The text computed for a term is the printed value of the term in the model, and there is one
    exactly if the term has a value. Missing: negative integers and strings, see below. *)
Theorem C67_values_partial : forall m t, proper_model m -> simple t ->
  forall s, evaluate (print_model m) t = Ok s <-> exists v, value m t v /\ s = print v.
Proof. intros m t Hm Ht. exact (proj2 (all_good m Hm t Ht)). Qed.
Print Assumptions C67_values_partial.

(** Different values are printed differently. *)
Theorem C67_text : forall v w, proper v -> proper w -> print v = print w -> v = w.
Proof. exact print_inj. Qed.
Print Assumptions C67_text.

(** Integers, as the solver prints them and as terms print them, are shown as what they are. *)
Theorem C67_integers : forall z, parse_int (print (int_value z)) = Val z /\ parse_int (show z) = Val z.
Proof. intros z. exact (conj (parse_value z) (parse_show z)). Qed.
Print Assumptions C67_integers.

(** Nothing else is shown as an integer. *)
Theorem C67_only_integers : forall v z, proper v -> parse_int (print v) = Val z ->
  exists a, (v = Atom a \/ v = Node (lit "-") [Atom a]) /\
            forall c, In c a -> 48 <= c <= 57 \/ c = 95 \/ c = 43 \/ c = 45.
Proof. exact parse_only. Qed.
Print Assumptions C67_only_integers.

Definition ex_model : smodel :=
  [(lit "$Ref.null", SConst (Atom (lit "$Ref!val!0")));
   (lit "x@1", SConst (Atom (lit "$Ref!val!3")));
   (lit "s@2", SConst (Node combine_ [Atom unit_; Node combine_ [Atom (lit "$Ref!val!3"); Node (lit "-") [Atom (lit "4")]]]));
   (lit "int_of%limited", STable [([Atom unit_; Atom (lit "$Ref!val!3")], Atom (lit "7"))] (Atom (lit "0")));
   (lit "f", STable [([Node (lit "-") [Atom (lit "5")]], Atom (lit "7")); ([Atom (lit "5")], Atom (lit "8"))] (Atom (lit "0")));
   (lit "str___create__", STable [([Atom (lit "2"); Atom (lit "9"); Atom (lit "$Ref!val!3")], Atom (lit "$Ref!val!4"))] (Atom (lit "$Ref!val!5")));
   (lit "str_len", STable [([Atom (lit "$Ref!val!4")], Atom (lit "2"))] (Atom (lit "0")))].
Example C67_model : proper_model ex_model.
Proof.
  assert (S : forall s, forallb (fun c => negb (is_space c) && negb (c =? 40) && negb (c =? 41)) (lit s) = true -> lit s <> [] -> proper (Atom (lit s))) by (intros s A B; now apply lit_symbol).
  assert (A : forall s, forallb (fun c => negb (is_space c) && negb (c =? 40) && negb (c =? 41)) (lit s) = true -> lit s <> [] -> symbol (lit s)) by (intros; now apply lit_symbol).
  split.
  - repeat constructor; simpl; intuition discriminate.
  - intros f e H. repeat (destruct H as [H|H]; [injection H as <- <-|]); try destruct H.
    + apply S; [reflexivity|discriminate].
    + apply S; [reflexivity|discriminate].
    + apply proper_node. split; [apply combine_symbol|]. split; [discriminate|]. split; [reflexivity|].
      constructor; [apply unit_symbol|]. constructor; [|constructor].
      apply proper_node. split; [apply combine_symbol|]. split; [discriminate|]. split; [reflexivity|].
      constructor; [apply S; [reflexivity|discriminate]|]. constructor; [|constructor].
      apply proper_node. split; [apply A; [reflexivity|discriminate]|]. split; [discriminate|]. split; [discriminate|].
      constructor; [apply S; [reflexivity|discriminate]|constructor].
    + split; [apply S; [reflexivity|discriminate]|]. split; [repeat constructor; simpl; tauto|].
      intros k v [H|[]]. injection H as <- <-. split; [apply S; [reflexivity|discriminate]|].
      intros x [<-|[<-|[]]]; [apply unit_symbol|apply S; [reflexivity|discriminate]].
    + split; [apply S; [reflexivity|discriminate]|]. split.
      { constructor; [simpl; intros [X|[]]; discriminate|]. repeat constructor. simpl. tauto. }
      intros k v [H|[H|[]]]; injection H as <- <-; (split; [apply S; [reflexivity|discriminate]|]).
      * intros x [<-|[]]. apply proper_node. split; [apply A; [reflexivity|discriminate]|]. split; [discriminate|]. split; [discriminate|].
        constructor; [apply S; [reflexivity|discriminate]|constructor].
      * intros x [<-|[]]. apply S; [reflexivity|discriminate].
    + split; [apply S; [reflexivity|discriminate]|]. split; [repeat constructor; simpl; tauto|].
      intros k v [H|[]]. injection H as <- <-. split; [apply S; [reflexivity|discriminate]|].
      intros x [<-|[<-|[<-|[]]]]; (apply S; [reflexivity|discriminate]).
    + split; [apply S; [reflexivity|discriminate]|]. split; [repeat constructor; simpl; tauto|].
      intros k v [H|[]]. injection H as <- <-. split; [apply S; [reflexivity|discriminate]|].
      intros x [<-|[]]; (apply S; [reflexivity|discriminate]).
Qed.
Example C67_example :
  evaluate (print_model ex_model) (TSecond (TSecond (TVar (lit "s@2")))) = Ok (lit "(- 4)") /\
  parse_int (lit "(- 4)") = Val (-4) /\
  evaluate (print_model ex_model) (TApp (lit "int_of") [TUnit; TFirst (TSecond (TVar (lit "s@2")))]) = Ok (lit "7") /\
  evaluate (print_model ex_model) (TApp (lit "f") [TInt 5]) = Ok (lit "8").
Proof. split; [reflexivity|]. split; [reflexivity|]. split; reflexivity. Qed.

(** A function applied to a negative integer literal is looked up for the text "-5", whereas the
    solver prints "(- 5)": the value shown is that of other arguments. *)
Theorem C67_negative_refuted : exists m t v w,
  proper_model m /\ value m t v /\ evaluate (print_model m) t = Ok (print w) /\ proper w /\ v <> w /\ ~ value m t w.
Proof.
  exists ex_model, (TApp (lit "f") [TInt (-5)]), (Atom (lit "7")), (Atom (lit "0")).
  assert (P : forall e, entry_of ex_model (lit "f") e -> e = STable [([Node (lit "-") [Atom (lit "5")]], Atom (lit "7")); ([Atom (lit "5")], Atom (lit "8"))] (Atom (lit "0"))).
  { intros e [H|[(_ & H)|(_ & H & _)]].
    - repeat (destruct H as [H|H]; [discriminate|]). destruct H.
    - repeat (destruct H as [H|H]; [try discriminate; injection H as <-; reflexivity|]). destruct H.
    - exfalso. apply H. eexists. do 4 right. left. reflexivity. }
  split; [apply C67_model|]. split.
  { exists [int_value (-5)], (STable [([Node (lit "-") [Atom (lit "5")]], Atom (lit "7")); ([Atom (lit "5")], Atom (lit "8"))] (Atom (lit "0"))).
    split; [simpl; auto|]. split.
    - right. left. split; [|do 4 right; left; reflexivity].
      intros (e & H). repeat (destruct H as [H|H]; [discriminate|]). destruct H.
    - left. now left. }
  split; [reflexivity|]. split; [apply lit_symbol; [reflexivity|discriminate]|]. split; [discriminate|].
  intros (vs & e & V & E & Ap). apply P in E. subst e. destruct vs as [|x vs]; [destruct V|]. destruct V as [V1 V2].
  destruct vs; [|destruct V2]. simpl in V1. subst x. destruct Ap as [[X|[X|[]]]|[X _]]; try discriminate. eapply X. now left.
Qed.
Print Assumptions C67_negative_refuted.

(** A function applied to a string constant is looked up for the text of the string instead of
    the object: the value shown is that of other arguments. *)
Theorem C67_strings_refuted : exists m t v w,
  proper_model m /\ value m t v /\ evaluate (print_model m) t = Ok (print w) /\ proper w /\ v <> w.
Proof.
  exists ex_model, (TApp (lit "str_len") [TApp (lit "str___create__") [TInt 2; TInt 9; TVar (lit "x@1")]]), (Atom (lit "2")), (Atom (lit "0")).
  split; [apply C67_model|]. split.
  { eexists [Atom (lit "$Ref!val!4")], _. split; [|split].
    - split; auto. eexists [Atom (lit "2"); Atom (lit "9"); Atom (lit "$Ref!val!3")], _. split; [|split].
      + split; [reflexivity|]. split; [reflexivity|]. split; [right; now left|exact Logic.I].
      + right. left. split; [|do 5 right; left; reflexivity].
        intros (e & H). repeat (destruct H as [H|H]; [discriminate|]). destruct H.
      + left. now left.
    - right. left. split; [|do 6 right; left; reflexivity].
      intros (e & H). repeat (destruct H as [H|H]; [discriminate|]). destruct H.
    - left. now left. }
  split; [reflexivity|]. split; [apply lit_symbol; [reflexivity|discriminate]|]. discriminate.
Qed.
Print Assumptions C67_strings_refuted.

(** * C68: types of objects *)

(** The class shown for an object of class k is a superclass of k and a subclass of the declared
    class, and there is one. *)
Theorem C68_sound : forall subclasses type_val basic issub v k h t d fuel,
  describes subclasses type_val issub v k -> ranked subclasses h ->
  precise subclasses type_val basic issub fuel v t = Some d -> below subclasses k d /\ below subclasses d t.
Proof. intros subclasses type_val basic issub v k h t d fuel D R H. exact (precise_sound _ _ _ _ _ _ D h R fuel t d H). Qed.
Print Assumptions C68_sound.
Theorem C68_found : forall subclasses type_val basic issub v k h t fuel,
  describes subclasses type_val issub v k -> ranked subclasses h -> (h t < fuel)%nat ->
  below subclasses k t -> type_val t <> None -> precise subclasses type_val basic issub fuel v t <> None.
Proof. intros subclasses type_val basic issub v k h t fuel D R Hf B P. exact (precise_found _ _ _ _ _ _ D h R fuel t Hf B P). Qed.
Print Assumptions C68_found.

(** It is k if get_basic has no entry for the type and all classes between are in the model.
    Missing: the other cases, see below. *)
Theorem C68_exact_partial : forall subclasses type_val basic issub v k h t fuel,
  describes subclasses type_val issub v k -> ranked subclasses h -> (h t < fuel)%nat ->
  below subclasses k t -> basic v = None ->
  (forall c, below subclasses c t -> below subclasses k c -> type_val c <> None) ->
  precise subclasses type_val basic issub fuel v t = Some k.
Proof. intros subclasses type_val basic issub v k h t fuel D R Hf B N P. exact (precise_exact _ _ _ _ _ _ D h R fuel N t Hf B P). Qed.
Print Assumptions C68_exact_partial.

(** Class 0 with subclass 1 with subclass 2; an object of class 2. *)
Definition ex_sub (c : nat) : list nat := match c with 0 => [1] | 1 => [2] | _ => [] end%nat.
Definition ex_val (c : nat) : option str := if Nat.leb c 2 then Some [Z.of_nat c] else None.
Definition ex_gap (c : nat) : option str := match c with 0 | 2 => Some [Z.of_nat c] | _ => None end%nat.
Definition ex_yes (v w : str) : str := lit "true".
Lemma ex_below c : (c <= 2)%nat -> below ex_sub 2%nat c.
Proof.
  intros H. destruct c as [|[|[|c]]]; [..|lia].
  - apply below_step with 1%nat; [now left|]. apply below_step with 2%nat; [now left|]. constructor.
  - apply below_step with 2%nat; [now left|]. constructor.
  - constructor.
Qed.
Lemma ex_ranked : ranked ex_sub (fun c => 2 - c)%nat.
Proof. intros [|[|c]] d H; simpl in H; intuition (subst; lia). Qed.
Example C68_describes : describes ex_sub ex_val ex_yes [2] 2%nat.
Proof.
  split.
  - intros c d w. unfold ex_val. destruct (Nat.leb c 2); [|discriminate]. destruct (Nat.leb d 2); [|discriminate].
    intros A B. injection A as <-. injection B as B. lia.
  - reflexivity.
  - reflexivity.
  - intros c w H N. exfalso. apply N. apply ex_below. unfold ex_val in H. destruct (Nat.leb_spec c 2); [auto|discriminate].
Qed.
Example C68_example : precise ex_sub ex_val (fun _ => None) ex_yes 5 [2] 0 = Some 2%nat.
Proof. reflexivity. Qed.

(** If get_basic has an entry for the type of the object then the declared class is shown, although
    all classes are in the model. *)
Theorem C68_exact_refuted : exists subclasses type_val basic issub v k h t fuel,
  describes subclasses type_val issub v k /\ ranked subclasses h /\ (h t < fuel)%nat /\ below subclasses k t /\
  (forall b, basic v = Some b -> b = v) /\
  (forall c, below subclasses c t -> below subclasses k c -> type_val c <> None) /\
  precise subclasses type_val basic issub fuel v t = Some t /\ t <> k.
Proof.
  exists ex_sub, ex_val, (fun w => Some w), ex_yes, [2], 2%nat, (fun c => 2 - c)%nat, 0%nat, 5%nat.
  split; [apply C68_describes|]. split; [apply ex_ranked|]. split; [simpl; lia|]. split; [apply ex_below; lia|].
  split; [intros b H; congruence|]. split; [|split; [reflexivity|discriminate]].
  intros c Hc _. assert (L : (c <= 2)%nat).
  { clear - Hc. assert (G : forall x, below ex_sub c x -> (x <= 2)%nat -> (c <= 2)%nat).
    { intros x B. induction B as [|x d I B IH]; auto. intros Hx. apply IH. destruct x as [|[|x]]; simpl in I; intuition (subst; lia). }
    apply (G 0%nat Hc). lia. }
  unfold ex_val. apply Nat.leb_le in L. rewrite L. discriminate.
Qed.
Print Assumptions C68_exact_refuted.

(** The same if a class between is not in the model. *)
Theorem C68_gap_refuted : exists subclasses type_val basic issub v k h t fuel,
  describes subclasses type_val issub v k /\ ranked subclasses h /\ (h t < fuel)%nat /\ below subclasses k t /\
  basic v = None /\ precise subclasses type_val basic issub fuel v t = Some t /\ t <> k.
Proof.
  exists ex_sub, ex_gap, (fun w => None), ex_yes, [2], 2%nat, (fun c => 2 - c)%nat, 0%nat, 5%nat.
  split; [|split; [apply ex_ranked|]; split; [simpl; lia|]; split; [apply ex_below; lia|]; split; [reflexivity|]; split; [reflexivity|discriminate]].
  split.
  - intros [|[|[|c]]] [|[|[|d]]] w A B; simpl in *; congruence.
  - reflexivity.
  - reflexivity.
  - intros c w H N. exfalso. apply N. apply ex_below. destruct c as [|[|[|c]]]; (lia || discriminate).
Qed.
Print Assumptions C68_gap_refuted.

(** An answer of issubtype that is neither true nor false counts as true: an object is shown with a class that
    no answer says it has. *)
Theorem C68_unspecified_refuted : exists subclasses type_val basic issub v t d fuel,
  (forall w, issub v w <> lit "true") /\ type_val t = Some v /\ type_val d <> Some v /\
  precise subclasses type_val basic issub fuel v t = Some d.
Proof.
  exists ex_sub, ex_val, (fun w => None), (fun _ _ => lit "#unspecified"), [0], 0%nat, 2%nat, 5%nat.
  split; [intros w; discriminate|]. split; [reflexivity|]. split; [discriminate|]. reflexivity.
Qed.
Print Assumptions C68_unspecified_refuted.
