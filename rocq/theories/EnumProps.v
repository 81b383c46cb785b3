(** C55: IntEnum classes. *)
From Coq Require Import Bool Arith ZArith List Lia.
From Verif Require Import NamesModel EnumModel EnumSpec EnumProofs.
Import ListNotations.
Local Open Scope Z_scope.

(** class f(IntEnum): a = 0; b = 1           class g(IntEnum): a = 0; c = 2 *)
Definition nf : pystring := [102%N].
Definition ng : pystring := [103%N].
Definition na : pystring := [97%N].
Definition nb : pystring := [98%N].
Definition nc : pystring := [99%N].
Definition flag : enum := {| en_name := nf; en_members := [(na, 0); (nb, 1)] |}.
Definition flag2 : enum := {| en_name := ng; en_members := [(na, 0); (nc, 2)] |}.

(** The postconditions that the verifier assumes for the generated functions are true
    of Python's enumerations, and well-defined, if the classes have different names
    and no other declaration has taken their names. *)
Theorem C55_consistent_partial : forall tbl es,
  NoDup (map en_name es) -> (forall e, In e es -> ~ In (en_name e) tbl) -> Forall wf es ->
  exists ds, generate tbl es = Some ds /\ accepted ds /\
    background (python (combine (map en_name es) es)) /\ Forall (holds (python (combine (map en_name es) es))) ds.
Proof. exact c55_consistent_partial. Qed.
Print Assumptions C55_consistent_partial.
Example C55_consistent_ex :
  NoDup (map en_name [flag; flag2]) /\ (forall e, In e [flag; flag2] -> ~ In (en_name e) [na]) /\ Forall wf [flag; flag2].
Proof.
  split; [repeat constructor; cbn; intuition discriminate|]. split.
  - intros e [<-|[<-|[]]]; cbn; intuition discriminate.
  - repeat constructor; cbn; intuition discriminate.
Qed.

(** C(v) is accepted exactly if v is the value of a member (otherwise Python raises
    ValueError), and yields that member. *)
Theorem C55_cons_checked : forall tbl es ds e v,
  NoDup (map en_name es) -> (forall e, In e es -> ~ In (en_name e) tbl) -> generate tbl es = Some ds -> In e es ->
  (cons_ok ds (en_name e) v <-> py_cons e (en_name e) v <> None) /\
  (forall r, py_cons e (en_name e) v = Some r -> cons_value (python (combine (map en_name es) es)) (en_name e) v = r).
Proof. exact c55_cons_checked. Qed.
Print Assumptions C55_cons_checked.
Example C55_cons_ex : py_cons flag2 ng 2 = Some (PMember ng 2) /\ py_cons flag2 ng 1 = None.
Proof. split; reflexivity. Qed.

(** What follows from the postconditions, whatever the functions are: a member is the
    object the constructor returns for its value, its value as an enum and as an int is
    the declared one, members are identical exactly if their values are equal, members
    of different classes are different, and every object of the class has the value of
    some member. *)
Theorem C55_members : forall tbl es ds I e m v,
  NoDup (map en_name es) -> (forall e, In e es -> ~ In (en_name e) tbl) -> generate tbl es = Some ds ->
  background I -> Forall (holds I) ds -> In e es -> In (m, v) (en_members e) ->
  static I (en_name e) m = cons_value I (en_name e) v /\
  typeof I (static I (en_name e) m) = TEnum (en_name e) /\
  to_int I (SEnum (en_name e)) (static I (en_name e) m) = v /\ to_int I SInt (static I (en_name e) m) = v /\
  (forall m' v', In (m', v') (en_members e) -> (static I (en_name e) m = static I (en_name e) m' <-> v = v')) /\
  (forall e' m' v', In e' es -> en_name e' <> en_name e -> In (m', v') (en_members e') ->
     static I (en_name e) m <> static I (en_name e') m') /\
  (forall r, typeof I r = TEnum (en_name e) -> exists m' v', In (m', v') (en_members e) /\ to_int I (SEnum (en_name e)) r = v').
Proof. exact c55_members. Qed.
Print Assumptions C55_members.
Example C55_members_ex : exists ds, generate [na] [flag; flag2] = Some ds /\
  Forall (holds (python (combine (map en_name [flag; flag2]) [flag; flag2]))) ds /\ In (nc, 2) (en_members flag2).
Proof.
  destruct (c55_consistent_partial [na] [flag; flag2] (proj1 C55_consistent_ex) (proj1 (proj2 C55_consistent_ex))
              (proj2 (proj2 C55_consistent_ex))) as (ds & G & _ & _ & H).
  exists ds. split; [exact G|]. split; [exact H|]. right. left. reflexivity.
Qed.

(** Comparisons of members and integers have Python's meaning. *)
Theorem C55_compare : forall p op lt l rt r,
  typed p lt l -> typed p rt r -> (compare (python p) op lt l rt r <-> py_compare op l r).
Proof. exact c55_compare. Qed.
Print Assumptions C55_compare.
(** f.a == g.a, f.a is not g.a, and f.b <= True *)
Example C55_compare_ex : let p := [(nf, flag); (ng, flag2)] in
  typed p (SEnum nf) (py_static p nf na) /\ typed p (SEnum ng) (py_static p ng na) /\
  typed p (SEnum nf) (py_static p nf nb) /\ typed p SInt (PBool true) /\
  py_compare Eq (py_static p nf na) (py_static p ng na) /\ py_compare IsNot (py_static p nf na) (py_static p ng na) /\
  py_compare LtE (py_static p nf nb) (PBool true).
Proof. cbn. repeat split; try lia. discriminate. Qed.

(** ** Where the encoding is wrong *)

(** Two modules declare enumerations of the same name with a common value. The members
    of the second are boxed by the function of the first, so the postcondition of such
    a member is contradictory: everything verifies in a method that uses one. *)
Theorem C55_same_name_refuted : exists tbl es ds,
  Forall wf es /\ generate tbl es = Some ds /\ accepted ds /\ forall I, ~ Forall (holds I) ds.
Proof.
  exists [], [flag; {| en_name := nf; en_members := [(nc, 1)] |}]. eexists.
  split; [repeat constructor; cbn; intuition discriminate|]. split; [reflexivity|]. split.
  - intros c m f v H. cbn in H.
    repeat (destruct H as [H|H]; [try discriminate; injection H as <- <- <- <-; exists [0; 1], nf; cbn; auto|]). destruct H.
  - intros I H. rewrite Forall_forall in H.
    assert (S := H (DStatic [102%N; 95%N; 48%N] nc nf 1)). assert (B := H (DBox nf [0; 1] nf)). cbn in S, B.
    destruct S as [T E]; [auto 10|]. destruct (B (or_introl eq_refl) 1) as [T' _]; [auto|].
    rewrite E, T' in T. discriminate.
Qed.
Print Assumptions C55_same_name_refuted.

(** f.a in [f.a] is true in Python, and the verifier can prove that it is false: the
    member on the left is replaced by the integer of the same value. *)
Theorem C55_contains_refuted : exists tbl es ds,
  NoDup (map en_name es) /\ (forall e, In e es -> ~ In (en_name e) tbl) /\ Forall wf es /\ generate tbl es = Some ds /\
  py_in (py_static [(nf, flag)] nf na) [py_static [(nf, flag)] nf na] /\
  forall I, background I -> Forall (holds I) ds -> ~ contains I (SEnum nf) (static I nf na) [static I nf na].
Proof.
  exists [], [flag]. eexists. split; [repeat constructor; cbn; intuition|]. split; [intros e _ []|].
  split; [repeat constructor; cbn; intuition discriminate|]. split; [reflexivity|].
  split; [exists (py_static [(nf, flag)] nf na); cbn; auto|].
  intros I B H [E|[]]. rewrite Forall_forall in H. assert (S := H (DStatic nf na nf 0)). cbn in S.
  destruct S as [T _]; [auto|]. cbn in E. rewrite E in T.
  destruct B as (B & _). destruct (B (enum_int I nf (static I nf na))) as [T' _]. congruence.
Qed.
Print Assumptions C55_contains_refuted.

(** An interpretation in which class f has a third object. *)
Inductive obj := OInt (z : Z) | OBool (b : bool) | OA | OB | OThird.
Definition third : interp :=
  let unbox := fun r => match r with OInt z => z | OBool b => if b then 1 else 0 | OA => 0 | OB => 1 | OThird => 5 end in
  {| R := obj;
     typeof := fun r => match r with OInt _ => TInt | OBool _ => TBool | _ => TEnum nf end;
     int_box := OInt; int_unbox := unbox; bool_box := OBool;
     object_eq := fun a b => unbox a = unbox b; int_eq := fun a b => unbox a = unbox b;
     enum_box := fun _ v => if v =? 0 then OA else OB;
     enum_int := fun _ r => match r with OB => 1 | _ => 0 end;
     static := fun _ m => if pystring_eqb m na then OA else OB |}.
Lemma third_background : background third.
Proof.
  unfold background, third. cbn. repeat split; auto.
  - intros [z|[]| | |]; cbn; try discriminate; reflexivity.
  - intros [z|[]| | |]; cbn; try discriminate; reflexivity.
  - intros. congruence.
Qed.
Lemma third_holds ds : generate [] [flag] = Some ds -> Forall (holds third) ds.
Proof.
  intros G. cbn in G. injection G as <-. rewrite Forall_forall. intros d [<-|[<-|[<-|[<-|[]]]]]; cbn.
  - intros v [<-|[<-|[]]]; cbn; auto.
  - intros [z|[]| | |]; try discriminate; intros _; (split; [cbn; auto|]);
      intros [z'|[]| | |]; cbn; intros; try discriminate; reflexivity.
  - auto.
  - auto.
Qed.

(** An object of the class that equals a member need not be that member for the
    verifier; in Python it is. *)
Theorem C55_identity_refuted : exists tbl es ds I r,
  NoDup (map en_name es) /\ Forall wf es /\ generate tbl es = Some ds /\ background I /\ Forall (holds I) ds /\
  typeof I r = TEnum nf /\ compare I Eq (SEnum nf) r (SEnum nf) (static I nf na) /\
  ~ compare I Is (SEnum nf) r (SEnum nf) (static I nf na) /\
  (forall r', py_typeof [(nf, flag)] r' = TEnum nf -> py_compare Eq r' (py_static [(nf, flag)] nf na) ->
              py_compare Is r' (py_static [(nf, flag)] nf na)).
Proof.
  exists [], [flag]. eexists. exists third, OThird.
  split; [repeat constructor; cbn; intuition|]. split; [repeat constructor; cbn; intuition discriminate|].
  split; [reflexivity|]. split; [exact third_background|]. split; [apply third_holds; reflexivity|].
  split; [reflexivity|]. split; [reflexivity|]. split; [discriminate|].
  intros [z|b|c z|n]; cbn; try discriminate.
  destruct (member [(nf, flag)] c z); [|discriminate]. intros E. injection E as ->. intros E. unfold py_eq in E. cbn in E.
  rewrite E. reflexivity.
Qed.
Print Assumptions C55_identity_refuted.

(** The value an object of the class has in an addition need not be the value it has in
    a comparison; in Python they are the same. *)
Theorem C55_arithmetic_refuted : exists tbl es ds I r,
  NoDup (map en_name es) /\ Forall wf es /\ generate tbl es = Some ds /\ background I /\ Forall (holds I) ds /\
  typeof I r = TEnum nf /\ to_int I (SEnum nf) r = 0 /\ add I r 1 <> 1.
Proof.
  exists [], [flag]. eexists. exists third, OThird.
  split; [repeat constructor; cbn; intuition|]. split; [repeat constructor; cbn; intuition discriminate|].
  split; [reflexivity|]. split; [exact third_background|]. split; [apply third_holds; reflexivity|].
  split; [reflexivity|]. split; [reflexivity|]. discriminate.
Qed.
Print Assumptions C55_arithmetic_refuted.
