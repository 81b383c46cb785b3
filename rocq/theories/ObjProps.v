(** C57: attributes exist when they are read; C58: values of new int-like objects. *)
From Coq Require Import List Bool Arith NArith ZArith QArith Lqa Lia.
From Verif Require Import NamesModel ObjModel ObjSpec ObjProofs ObjProofs2.
Import ListNotations.
Local Open Scope nat_scope.

(** Names for the examples. *)
Definition n_A : pystring := [65]%N.            (* A *)
Definition n_B : pystring := [66]%N.            (* B *)
Definition n__A : pystring := [95; 65]%N.       (* _A *)
Definition a_x : pystring := [120]%N.           (* x *)
Definition a_y : pystring := [121]%N.           (* y *)
Definition a___x : pystring := [95; 95; 120]%N. (* __x *)
Definition a__A__x : pystring := [95; 65; 95; 95; 120]%N. (* _A__x *)

(** class A: x, __x; class B(A): x (again), y, __x (its own) *)
Definition P_ex : program := [Cls n_A None [a_x; a___x]; Cls n_B (Some 0) [a_x; a_y; a___x]].

Lemma P_ex_sub d a : subclass P_ex d a -> d = a \/ (d = 1 /\ a = 0).
Proof.
  intros S. inversion S as [|? k b ? E B S2]; subst; [left; reflexivity|]. right.
  destruct d as [|[|d]]; cbn in E; [inversion E; subst; discriminate| |destruct d; discriminate].
  inversion E; subst. inversion B; subst. inversion S2 as [|? k2 b2 ? E2 B2 S3]; subst; [auto|].
  cbn in E2. inversion E2; subst. discriminate.
Qed.

Lemma P_ex_lists c x : lists P_ex c x -> (c = 0 /\ (x = a_x \/ x = a___x)) \/ (c = 1 /\ (x = a_x \/ x = a_y \/ x = a___x)).
Proof.
  intros (k & E & I). destruct c as [|[|c]]; cbn in E; [| |destruct c; discriminate]; inversion E; subst; cbn in I; intuition.
Qed.

Lemma P_ex_wf : wf_prog P_ex.
Proof.
  intros c k E. destruct c as [|[|c]]; cbn in E; [| |destruct c; discriminate]; inversion E; subst; cbn; (split; [|intros b B; inversion B; lia]);
  repeat constructor; cbn; intuition discriminate.
Qed.

Lemma P_ex_clash : no_clash P_ex.
Proof.
  intros d a a' x x' S S' L L' E. clear d S S'. apply P_ex_lists in L. apply P_ex_lists in L'.
  destruct L as [(-> & [-> | ->])|(-> & [-> | [-> | ->]])], L' as [(-> & [-> | ->])|(-> & [-> | [-> | ->]])]; cbn in E;
    try discriminate; split; try reflexivity; intros M; try reflexivity; discriminate.
Qed.

(** ** C57, one field per attribute: two accesses to an object denote the same Viper field
    exactly if they denote the same attribute in Python.  (Missing: programs with clashing
    private names, refuted below.) *)
Theorem C57_same_attribute_partial :
  forall (P : program) (d : nat) (s1 s2 : site) (f1 f2 : vfield),
  wf_prog P -> no_clash P -> subclass P d (s_type s1) -> subclass P d (s_type s2) ->
  lookup P (s_union s1) (s_cur s1) (s_type s1) (s_attr s1) = Some f1 ->
  lookup P (s_union s2) (s_cur s2) (s_type s2) (s_attr s2) = Some f2 ->
  (s_union s1 = true -> own P s1) -> (s_union s2 = true -> own P s2) ->
  (f1 = f2 <-> python_name P (s_cur s1) (s_attr s1) = python_name P (s_cur s2) (s_attr s2)).
Proof. intros P d s1 s2 f1 f2 WF NC. exact (same_attribute P WF NC d s1 s2 f1 f2). Qed.
Print Assumptions C57_same_attribute_partial.

(** The names that are treated as private are those that are private in Python. *)
Theorem C57_private :
  forall x : pystring,
  is_mangled x = true <->
  (exists r, x = underscore :: underscore :: r) /\ ~ (exists r, x = r ++ [underscore; underscore]).
Proof. exact private_iff. Qed.
Print Assumptions C57_private.

Example C57_private_ex :
  is_mangled [95; 95; 120]%N = true /\ is_mangled [95; 95; 120; 95; 95]%N = false /\ is_mangled [95; 120]%N = false.
Proof. repeat split. Qed.


(** self.x in A and in B is one field; self.__x in A and in B are two; b.__x is not accepted
    in A if b has type B. *)
Example C57_same_attribute_ex :
  lookup P_ex false (Some 1) 1 a_x = lookup P_ex false (Some 0) 0 a_x /\
  lookup P_ex false (Some 0) 0 a___x = Some (0, a___x) /\ lookup P_ex false (Some 1) 1 a___x = Some (1, a___x) /\
  lookup P_ex false (Some 0) 1 a___x = None /\ subclass P_ex 1 0.
Proof.
  repeat split; try reflexivity. apply sub_step with (k := Cls n_B (Some 0) [a_x; a_y; a___x]) (b := 0); [reflexivity|reflexivity|constructor].
Qed.

(** ** C57, no AttributeError: in every execution whose checks succeed, every attribute that
    is read exists and has the value the verifier believes, and every attribute that is
    deleted exists. *)
Theorem C57_attributes_partial :
  forall (P : program) (tr : list label) (st : state),
  wf_prog P -> no_clash P -> steps P start tr st -> Forall (own_label P) tr -> Forall as_expected tr.
Proof. intros P tr st WF NC S O. exact (proj2 (run_expected P WF NC tr st S O)). Qed.
Print Assumptions C57_attributes_partial.

(** A run: the main program makes an object of class B; code of B sets x, code of A reads
    it, B deletes it. *)
Definition in_A (x : pystring) : site := Site false (Some 0) 0 x.
Definition in_B (x : pystring) : site := Site false (Some 1) 1 x.

Lemma sub_1_0 P k : nth_error P 1 = Some k -> c_base k = Some 0 -> subclass P 1 0.
Proof. intros E B. apply sub_step with (k := k) (b := 0); [exact E|exact B|constructor]. Qed.

Lemma step_fwd P st1 l st2 tr st3 : step P st1 l st2 -> steps P st2 tr st3 -> steps P st1 (l :: tr) st3.
Proof.
  intros S R. induction R as [st|st2 tr st3 l' st4 R IH S'].
  - exact (steps_snoc P st1 [] st1 l st (steps_nil P st1) S).
  - exact (steps_snoc P st1 (l :: tr) st3 l' st4 (IH S) S').
Qed.

Example C57_attributes_ex : exists st,
  steps P_ex start [LOther; LWrite (in_B a_x) 0; LWrite (in_A a___x) 0; LWrite (in_B a___x) 0;
                    LRead (in_A a_x) 0 7%Z (Some 7%Z); LRead (in_A a___x) 0 8%Z (Some 8%Z); LDelete (in_A a_x) 0 true] st.
Proof.
  eexists.
  eapply step_fwd; [apply (s_new P_ex 0 1 start); cbn; lia|].
  eapply step_fwd; [apply (s_write P_ex 0 (in_B a_x) 0 (0, a_x) 7%Z); [cbn; lia|cbn; lia|constructor|reflexivity|reflexivity]|].
  eapply step_fwd; [apply (s_write P_ex 0 (in_A a___x) 0 (0, a___x) 8%Z);
    [cbn; lia|cbn; lia|eapply sub_1_0; reflexivity|reflexivity|reflexivity]|].
  eapply step_fwd; [apply (s_write P_ex 0 (in_B a___x) 0 (1, a___x) 9%Z); [cbn; lia|cbn; lia|constructor|reflexivity|reflexivity]|].
  eapply step_fwd; [apply (s_read P_ex 0 (in_A a_x) 0 (0, a_x)); [cbn; lia|cbn; lia|eapply sub_1_0; reflexivity|reflexivity|reflexivity]|].
  eapply step_fwd; [apply (s_read P_ex 0 (in_A a___x) 0 (0, a___x)); [cbn; lia|cbn; lia|eapply sub_1_0; reflexivity|reflexivity|reflexivity]|].
  eapply step_fwd; [apply (s_delete P_ex 0 (in_A a_x) 0 (0, a_x)); [cbn; lia|cbn; lia|eapply sub_1_0; reflexivity|reflexivity|reflexivity|reflexivity]|].
  constructor.
Qed.

(** ** C57, constructors: whoever creates an object can set every attribute that its class or
    its superclasses have. *)
Theorem C57_create :
  forall (P : program) (C : nat) (s : site) (f : vfield) (st : state) (i : nat),
  wf_prog P -> subclass P C (s_type s) ->
  lookup P (s_union s) (s_cur s) (s_type s) (s_attr s) = Some f ->
  (forall r, (0 <= held st i r)%Q) ->
  (forall g, (held st i (RAcc (length (objs st)) g) == 0)%Q /\ (held st i (RMay (length (objs st)) g) == 0)%Q) ->
  exists p',
    write_perms (new_perms (length (objs st)) (all_fields P C) (held st i)) (length (objs st)) f = Some p' /\
    (1 <= p' (RAcc (length (objs st)) f))%Q.
Proof.
  intros P C s f st i WF S L H0 H1. destruct (create_write P WF C s f S L st i) as (p' & H). exists p'. exact (H H0 H1).
Qed.
Print Assumptions C57_create.

(** ** C57 fails: class A and its subclass _A both have __x.  Python calls both _A__x, the
    verifier takes them for two fields. *)
Definition P_clash : program := [Cls n_A None [a___x]; Cls n__A (Some 0) [a___x]].

Theorem C57_clash_refuted :
  exists (P : program) (tr : list label) (st : state),
  wf_prog P /\ steps P start tr st /\ Forall (own_label P) tr /\ exists l, In l tr /\ ~ as_expected l.
Proof.
  assert (X : exists st, steps P_clash start
    [LOther; LWrite (in_A a___x) 0; LWrite (in_B a___x) 0; LRead (in_A a___x) 0 1%Z (Some 2%Z)] st).
  { eexists.
    eapply step_fwd; [apply (s_new P_clash 0 1 start); cbn; lia|].
    eapply step_fwd; [apply (s_write P_clash 0 (in_A a___x) 0 (0, a___x) 1%Z);
      [cbn; lia|cbn; lia|eapply sub_1_0; reflexivity|reflexivity|reflexivity]|].
    eapply step_fwd; [apply (s_write P_clash 0 (in_B a___x) 0 (1, a___x) 2%Z); [cbn; lia|cbn; lia|constructor|reflexivity|reflexivity]|].
    eapply step_fwd; [apply (s_read P_clash 0 (in_A a___x) 0 (0, a___x)); [cbn; lia|cbn; lia|eapply sub_1_0; reflexivity|reflexivity|reflexivity]|].
    constructor. }
  destruct X as (st & X). exists P_clash. eexists. exists st. split.
  { intros c k E. destruct c as [|[|c]]; cbn in E; [| |destruct c; discriminate]; inversion E; subst; cbn; (split; [|intros b B; inversion B; lia]);
    repeat constructor; intros []. }
  split; [exact X|]. split; [repeat constructor; cbn; discriminate|].
  exists (LRead (in_A a___x) 0 1%Z (Some 2%Z)). split; [right; right; right; left; reflexivity|cbn; discriminate].
Qed.
Print Assumptions C57_clash_refuted.

(** The same with one class that uses both self.__x and self._A__x. *)
Definition P_spelled : program := [Cls n_A None [a___x; a__A__x]].

Theorem C57_spelled_refuted :
  exists (P : program) (tr : list label) (st : state),
  wf_prog P /\ steps P start tr st /\ Forall (own_label P) tr /\ exists l, In l tr /\ ~ as_expected l.
Proof.
  assert (X : exists st, steps P_spelled start
    [LOther; LWrite (in_A a___x) 0; LWrite (in_A a__A__x) 0; LRead (in_A a___x) 0 1%Z (Some 2%Z)] st).
  { eexists.
    eapply step_fwd; [apply (s_new P_spelled 0 0 start); cbn; lia|].
    eapply step_fwd; [apply (s_write P_spelled 0 (in_A a___x) 0 (0, a___x) 1%Z); [cbn; lia|cbn; lia|constructor|reflexivity|reflexivity]|].
    eapply step_fwd; [apply (s_write P_spelled 0 (in_A a__A__x) 0 (0, a__A__x) 2%Z); [cbn; lia|cbn; lia|constructor|reflexivity|reflexivity]|].
    eapply step_fwd; [apply (s_read P_spelled 0 (in_A a___x) 0 (0, a___x)); [cbn; lia|cbn; lia|constructor|reflexivity|reflexivity]|].
    constructor. }
  destruct X as (st & X). exists P_spelled. eexists. exists st. split.
  { intros c k E. destruct c as [|c]; cbn in E; [|destruct c; discriminate]; inversion E; subst; cbn; (split; [|intros b B; inversion B]);
    repeat constructor; cbn; intuition discriminate. }
  split; [exact X|]. split; [repeat constructor; cbn; discriminate|].
  exists (LRead (in_A a___x) 0 1%Z (Some 2%Z)). split; [right; right; right; left; reflexivity|cbn; discriminate].
Qed.
Print Assumptions C57_spelled_refuted.

(** ** C57 fails: del a.__x outside of class A is accepted (statement.py 425-439 has no check
    for private fields); Python finds no such attribute. *)
Definition P_two : program := [Cls n_A None [a___x]; Cls n_B None [a_y]].

Theorem C57_del_private_refuted :
  exists (P : program) (tr : list label) (st : state),
  wf_prog P /\ no_clash P /\ steps P start tr st /\ exists l, In l tr /\ ~ as_expected l.
Proof.
  assert (X : exists st, steps P_two start
    [LOther; LWrite (in_A a___x) 0; LDelete (Site false (Some 1) 0 a___x) 0 false] st).
  { eexists.
    eapply step_fwd; [apply (s_new P_two 0 0 start); cbn; lia|].
    eapply step_fwd; [apply (s_write P_two 0 (in_A a___x) 0 (0, a___x) 1%Z); [cbn; lia|cbn; lia|constructor|reflexivity|reflexivity]|].
    eapply step_fwd; [apply (s_delete P_two 0 (Site false (Some 1) 0 a___x) 0 (0, a___x)); [cbn; lia|cbn; lia|constructor|reflexivity|reflexivity|reflexivity]|].
    constructor. }
  destruct X as (st & X). exists P_two. eexists. exists st. split; [|split; [|split; [exact X|]]].
  - intros c k E. destruct c as [|[|c]]; cbn in E; [| |destruct c; discriminate]; inversion E; subst; cbn; (split; [|intros b B; inversion B]);
    repeat constructor; intros [].
  - intros d a a' x x' S S' (k & E & I) (k' & E' & I') EQ.
    destruct a as [|[|a]]; cbn in E; [| |destruct a; discriminate]; destruct a' as [|[|a']]; cbn in E'; try (destruct a'; discriminate);
      inversion E; inversion E'; subst; cbn in I, I'; destruct I as [<-|[]]; destruct I' as [<-|[]]; cbn in EQ; try discriminate; auto.
  - exists (LDelete (Site false (Some 1) 0 a___x) 0 false). split; [right; right; left; reflexivity|cbn; discriminate].
Qed.
Print Assumptions C57_del_private_refuted.

(** ** C57 fails: nor is there one if the receiver has a union type (expression.py
    1135-1164). *)
Theorem C57_union_private_refuted :
  exists (P : program) (tr : list label) (st : state),
  wf_prog P /\ no_clash P /\ steps P start tr st /\ exists l, In l tr /\ ~ as_expected l.
Proof.
  assert (X : exists st, steps P_two start
    [LOther; LWrite (in_A a___x) 0; LRead (Site true (Some 1) 0 a___x) 0 1%Z None] st).
  { eexists.
    eapply step_fwd; [apply (s_new P_two 0 0 start); cbn; lia|].
    eapply step_fwd; [apply (s_write P_two 0 (in_A a___x) 0 (0, a___x) 1%Z); [cbn; lia|cbn; lia|constructor|reflexivity|reflexivity]|].
    eapply step_fwd; [apply (s_read P_two 0 (Site true (Some 1) 0 a___x) 0 (0, a___x)); [cbn; lia|cbn; lia|constructor|reflexivity|reflexivity]|].
    constructor. }
  destruct X as (st & X). exists P_two. eexists. exists st. split; [|split; [|split; [exact X|]]].
  - intros c k E. destruct c as [|[|c]]; cbn in E; [| |destruct c; discriminate]; inversion E; subst; cbn; (split; [|intros b B; inversion B]);
    repeat constructor; intros [].
  - intros d a a' x x' S S' (k & E & I) (k' & E' & I') EQ.
    destruct a as [|[|a]]; cbn in E; [| |destruct a; discriminate]; destruct a' as [|[|a']]; cbn in E'; try (destruct a'; discriminate);
      inversion E; inversion E'; subst; cbn in I, I'; destruct I as [<-|[]]; destruct I' as [<-|[]]; cbn in EQ; try discriminate; auto.
  - exists (LRead (Site true (Some 1) 0 a___x) 0 1%Z None). split; [right; right; left; reflexivity|cbn; discriminate].
Qed.
Print Assumptions C57_union_private_refuted.

(** ** C57, MayCreate and del: they mean the field that assignments write exactly if the
    class where the attribute is found does not inherit it. *)
Theorem C57_may_create_exact :
  forall (P : program) (u : bool) (cur : option nat) (T : nat) (x : pystring) (f g : vfield) (c : nat),
  wf_prog P -> lookup P u cur T x = Some f -> lookup_raw P T x = Some g -> get_field P T x = Some c ->
  (g = f <-> inherited P c x = None).
Proof. intros P u cur T x f g c WF. exact (raw_agrees P WF u cur T x f g c). Qed.
Print Assumptions C57_may_create_exact.

(** So in class B, which sets x as its superclass A does, MayCreate(self, 'x') does not hold
    for a new object, *)
Theorem C57_may_create_refuted :
  exists (P : program) (C : nat) (x : pystring) (f g : vfield),
  wf_prog P /\ no_clash P /\ lookup P false (Some C) C x = Some f /\ lookup_raw P C x = Some g /\
  In f (all_fields P C) /\ ~ In g (all_fields P C) /\ declared P g = false.
Proof.
  exists P_ex, 1, a_x, (0, a_x), (1, a_x).
  split; [exact P_ex_wf|]. split; [exact P_ex_clash|]. repeat split; try reflexivity.
  - cbn. right. right. left. reflexivity.
  - cbn. intuition discriminate.
Qed.
Print Assumptions C57_may_create_refuted.

(** ** C58, values of new objects of subclasses of int: right if no class has a constructor, *)
Theorem C58_value_partial :
  forall (args : list Z) (v : Z), int_value false args = Some v -> python_int args = Some v.
Proof. intros [|a [|b args]] v H; cbn in *; congruence. Qed.
Print Assumptions C58_value_partial.

Example C58_value_ex : int_value false [5%Z] = Some 5%Z.
Proof. reflexivity. Qed.

(** and for all classes if there is no argument; *)
Theorem C58_no_argument :
  forall (has_init : bool), int_value has_init [] = python_int [].
Proof. reflexivity. Qed.
Print Assumptions C58_no_argument.

(** but with a constructor the value is believed to be 0 whatever the argument is, *)
Theorem C58_exact :
  forall (has_init : bool) (a : Z) (args : list Z),
  int_value has_init (a :: args) = python_int (a :: args) <->
  has_init = false \/ (a = 0%Z /\ args = []).
Proof.
  intros [|] a [|b args]; cbn; split; try (intros [H|(H1 & H2)]); try congruence; try (intros H; right; split; congruence); auto; intros; discriminate.
Qed.
Print Assumptions C58_exact.

(** which is false, and calls that raise TypeError are believed to succeed. *)
Theorem C58_init_refuted :
  exists (args : list Z) (v w : Z), int_value true args = Some v /\ python_int args = Some w /\ v <> w.
Proof. exists [5%Z], 0%Z, 5%Z. repeat split; discriminate. Qed.
Print Assumptions C58_init_refuted.

Theorem C58_error_refuted : exists (args : list Z) (v : Z), int_value true args = Some v /\ python_int args = None.
Proof. exists [5%Z; 2%Z], 0%Z. split; reflexivity. Qed.
Print Assumptions C58_error_refuted.
