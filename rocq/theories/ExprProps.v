(** Properties C14 (operand evaluation), C15 (short circuits and conditional
    expressions), C16 (comparison chains), C17 (assignments), C18 (starred
    targets). *)
From Coq Require Import List ZArith Bool Arith Lia.
From Verif Require Import ExprSpec ExprModel ExprProofs.
Import ListNotations.

(** A small program to instantiate the theorems with.  Function 0 is integer
    addition, comparison 0 is [<] on ints; call 0 stores 5 in attribute 0 of
    object 0 and returns 1, call 1 raises exception 7, call 2 stores its argument. *)
Definition num (v : val) : Z := match v with VInt z => z | _ => 0%Z end.
Definition demo : env := {|
  fun_sem := fun _ _ vs => VInt (fold_right Z.add 0%Z (map num vs));
  call_sem := fun m h vs =>
    match m with
    | 0 => (upd_heap h 0 0 (VInt 5), inl (VInt 1))
    | 1 => (h, inr 7)
    | _ => (upd_heap h 0 0 (nth 0 vs VNone), inl VNone)
    end;
  cmp_sem := fun _ _ a b => Z.ltb (num a) (num b);
  isb := fun e => match e with EConst (VBool _) | ECmp _ _ | ENot _ => true | _ => false end;
  fun_indep := fun _ => true;
  cmp_indep := fun _ => true |}.

Lemma demo_ok : env_ok demo.
Proof. split; intros; reflexivity. Qed.

Lemma ev_cmp_bool : forall ev cmp rest v h w h',
  ev_cmp ev cmp v rest h = Ok w h' -> exists b, w = VBool b.
Proof.
  induction rest as [|[o e] rest IH]; intros v h w h' H; simpl in H.
  - inversion H; eauto.
  - destruct (ev e h); simpl in H; [|discriminate].
    destruct (cmp o h0 v a); [eapply IH; eauto | inversion H; eauto].
Qed.

Lemma demo_typing : forall l, sound_typing demo l (fun _ => True).
Proof.
  intros l e h v h' _ H. split; [exact I|]. intro Hb. destruct e; try discriminate.
  - destruct v0; try discriminate. inversion H; eauto.
  - simpl in H. destruct (py_eval demo l e h); simpl in H; [|discriminate]. inversion H; eauto.
  - simpl in H. destruct (py_eval demo l e h); simpl in H; [|discriminate].
    eapply ev_cmp_bool; eauto.
Qed.

Definition l0 : locals := fun x => VInt (Z.of_nat x).
Definition h0 : heap := fun _ _ => VInt 2.
Definition tm0 : temps := fun _ => VNone.
Definition o : expr := EConst (VRef 0).

(** ** C14: operands are evaluated from left to right, each once *)

(** The statement in full: whatever the expression, running the emitted code
    gives Python's value, final heap and exception. *)
Definition C14_statement : Prop :=
  forall E l Inv e n tm h,
    env_ok E -> sound_typing E l Inv -> Inv h ->
    run E l (translate_expr E false e n) tm h = py_value E l false e h.

(** [o.f + m()] where [m] changes [o.f]: the left operand is read after the
    call. *)
Theorem C14_operand_order_refuted : ~ C14_statement.
Proof.
  intro H.
  specialize (H demo l0 (fun _ => True) (EFun 0 [EField o 0; ECall 0 []]) 0 tm0 h0
                demo_ok (demo_typing l0) I).
  vm_compute in H. discriminate.
Qed.
Print Assumptions C14_operand_order_refuted.

(** It holds whenever no operand that reads the heap is followed by an operand
    with a call (and operands of [and]/[or] keep their value). *)
Theorem C14_operand_order_partial : forall E l Inv e n tm h as_condition,
  env_ok E -> sound_typing E l Inv -> Inv h ->
  ordered E e = true ->
  (as_condition = false -> keeps_value E false e = true) ->
  run E l (translate_expr E as_condition e n) tm h = py_value E l as_condition e h.
Proof. exact c14_operand_order_partial. Qed.
Print Assumptions C14_operand_order_partial.

(** [x1 + m() + (m() if o.f < 3 else x2)], ... : calls on both sides *)
Example C14_example :
  let e := EFun 0 [EVar 1; ECall 0 []; ECall 2 [EFun 0 [EVar 2; EVar 3]]; EField o 0] in
  ordered demo e = true /\ keeps_value demo false e = true /\
  py_value demo l0 false e h0 = Ok (VInt 7)
     (upd_heap (upd_heap h0 0 0 (VInt 5)) 0 0 (VInt 5)).
Proof. repeat split. Qed.

(** An exception in an operand ends the evaluation, in the right state. *)
Example C14_example_exception :
  run demo l0 (translate_expr demo false (EFun 0 [ECall 2 [EVar 9]; ECall 1 []; ECall 0 []]) 0) tm0 h0
  = Exc 7 (upd_heap h0 0 0 (VInt 9)).
Proof. reflexivity. Qed.

(** ** C15: [and], [or] and conditional expressions *)

Definition C15_statement : Prop :=
  forall E l Inv is_and e es n tm h,
    env_ok E -> sound_typing E l Inv -> Inv h ->
    run E l (translate_expr E false (EBool is_and e es) n) tm h
    = py_value E l false (EBool is_and e es) h.

(** [0 or (5 if x else 6)] evaluates to [True]: a conditional expression that is
    an operand of [or] is reduced to its truth value. *)
Theorem C15_ifexp_operand_refuted : ~ C15_statement.
Proof.
  intro H.
  specialize (H demo l0 (fun _ => True) false (EConst (VInt 0))
                [EIf (EVar 1) (EConst (VInt 5)) (EConst (VInt 6))] 0 tm0 h0
                demo_ok (demo_typing l0) I).
  vm_compute in H. discriminate.
Qed.
Print Assumptions C15_ifexp_operand_refuted.

(** [o.f or m()] where [o.f] is 0 and [m()] changes it to 5: Python gives the
    result of [m()], the translation re-reads [o.f]. *)
Theorem C15_or_reread_refuted : exists h, 
  run demo l0 (translate_expr demo false (EBool false (EField o 0) [ECall 0 []]) 0) tm0 h
  <> py_value demo l0 false (EBool false (EField o 0) [ECall 0 []]) h.
Proof.
  exists (fun _ _ => VInt 0). vm_compute. discriminate.
Qed.
Print Assumptions C15_or_reread_refuted.

(** [m() if o.f < 3 else x] where [m()] changes [o.f] to 5: the call is executed
    and then the value of the other branch is taken. *)
Theorem C15_condition_reread_refuted :
  run demo l0 (translate_expr demo false
      (EIf (ECmp (EField o 0) [(0, EConst (VInt 3))]) (ECall 0 []) (EVar 9)) 0) tm0 h0
  <> py_value demo l0 false
      (EIf (ECmp (EField o 0) [(0, EConst (VInt 3))]) (ECall 0 []) (EVar 9)) h0.
Proof. vm_compute. discriminate. Qed.
Print Assumptions C15_condition_reread_refuted.

(** Once an operand decides, nothing of the other operands is executed, whatever
    they are. *)
Theorem C15_short_circuit_partial : forall E l Inv is_and e es n tm h v h',
  env_ok E -> sound_typing E l Inv -> Inv h ->
  ordered E e = true -> keeps_value E true e = true ->
  py_eval E l e h = Ok v h' -> truthy v = negb is_and ->
  run E l (translate_expr E false (EBool is_and e es) n) tm h = Ok v h'.
Proof. exact bool_stops. Qed.
Print Assumptions C15_short_circuit_partial.

(** The whole chain, for operands as in C14. *)
Theorem C15_and_or_partial : forall E l Inv is_and e es n tm h,
  env_ok E -> sound_typing E l Inv -> Inv h ->
  ordered E (EBool is_and e es) = true ->
  keeps_value E false (EBool is_and e es) = true ->
  run E l (translate_expr E false (EBool is_and e es) n) tm h
  = py_value E l false (EBool is_and e es) h.
Proof. exact c15_and_or_partial. Qed.
Print Assumptions C15_and_or_partial.

(** Only the chosen branch of a conditional expression is executed, whatever the
    other branch is. *)
Theorem C15_conditional_partial : forall E l Inv c a b n tm h v h1,
  env_ok E -> sound_typing E l Inv -> Inv h ->
  ordered E c = true -> py_eval E l c h = Ok v h1 ->
  let taken := if truthy v then a else b in
  ordered E taken = true -> keeps_value E false taken = true ->
  negb (effectful taken) || negb (reads E c) = true ->
  run E l (translate_expr E false (EIf c a b) n) tm h = py_eval E l taken h1.
Proof. exact if_takes. Qed.
Print Assumptions C15_conditional_partial.

Example C15_example :
  (* [x0 and m1()] with x0 = 0: the call that raises is not executed *)
  run demo l0 (translate_expr demo false (EBool true (EVar 0) [ECall 1 []]) 0) tm0 h0 = Ok (VInt 0) h0 /\
  (* [m0() and x3 and m2(x4)]: all operands are executed *)
  ordered demo (EBool true (ECall 0 []) [EVar 3; ECall 2 [EVar 4]]) = true /\
  py_value demo l0 false (EBool true (ECall 0 []) [EVar 3; ECall 2 [EVar 4]]) h0 =
  Ok VNone (upd_heap (upd_heap h0 0 0 (VInt 5)) 0 0 (VInt 4)) /\
  (* [m0() if x1 < x2 else m1()] *)
  ordered demo (ECmp (EVar 1) [(0, EVar 2)]) = true /\
  run demo l0 (translate_expr demo false
     (EIf (ECmp (EVar 1) [(0, EVar 2)]) (ECall 0 []) (ECall 1 [])) 0) tm0 h0
  = Ok (VInt 1) (upd_heap h0 0 0 (VInt 5)).
Proof. repeat split. Qed.

(** ** C16: comparison chains *)

Definition C16_statement : Prop :=
  forall E l Inv e rest n tm h,
    env_ok E -> sound_typing E l Inv -> Inv h ->
    run E l (translate_expr E false (ECmp e rest) n) tm h
    = py_value E l false (ECmp e rest) h.

(** [1 < 0 < m()] executes (and here: raises from) the call. *)
Theorem C16_chain_refuted : ~ C16_statement.
Proof.
  intro H.
  specialize (H demo l0 (fun _ => True) (EVar 1) [(0, EVar 0); (0, ECall 1 [])] 0 tm0 h0
                demo_ok (demo_typing l0) I).
  vm_compute in H. discriminate.
Qed.
Print Assumptions C16_chain_refuted.

(** Chains of any length in which only the first two operands may contain
    calls. *)
Theorem C16_chain_partial : forall E l Inv e rest n tm h,
  env_ok E -> sound_typing E l Inv -> Inv h ->
  ordered E (ECmp e rest) = true ->
  run E l (translate_expr E false (ECmp e rest) n) tm h
  = py_value E l false (ECmp e rest) h.
Proof. exact c16_chain_partial. Qed.
Print Assumptions C16_chain_partial.

Example C16_example :
  (* [m0() < x2 < x3 < x3] *)
  let e := ECmp (ECall 0 []) [(0, EVar 2); (0, EVar 3); (0, EVar 3)] in
  ordered demo e = true /\
  py_value demo l0 false e h0 = Ok (VBool false) (upd_heap h0 0 0 (VInt 5)).
Proof. repeat split. Qed.

(** ** C17: assignment *)

Definition C17_statement : Prop :=
  forall E l Inv ts e n tm h,
    env_ok E -> sound_typing E l Inv -> Inv h ->
    ordered E e = true -> keeps_value E false e = true ->
    forallb wf_target ts = true ->
    exec_assign E (tr_assign E ts e n) l tm h = py_assign_stmt E ts e l h.

Lemma res_loc : forall r1 r2 : res astate, r1 = r2 -> forall x,
  match r1, r2 with Ok a _, Ok b _ => a_loc a x = a_loc b x | _, _ => True end.
Proof. intros r1 r2 -> x. destruct r2; auto. Qed.

(** [a, b = b, a] does not swap: the second assignment reads the new [a]. *)
Theorem C17_swap_refuted : ~ C17_statement.
Proof.
  intro H.
  specialize (H demo l0 (fun _ => True) [TgtTuple [TgtVar 1; TgtVar 2]] (ETuple [EVar 2; EVar 1])
                0 tm0 h0 demo_ok (demo_typing l0) I eq_refl eq_refl eq_refl).
  apply res_loc with (x := 2) in H. vm_compute in H. discriminate.
Qed.
Print Assumptions C17_swap_refuted.

(** [x = y = x + x]: [y] gets twice the new [x]. *)
Theorem C17_chained_refuted :
  exec_assign demo (tr_assign demo [TgtVar 1; TgtVar 2] (EFun 0 [EVar 1; EVar 1]) 0) l0 tm0 h0
  <> py_assign_stmt demo [TgtVar 1; TgtVar 2] (EFun 0 [EVar 1; EVar 1]) l0 h0.
Proof.
  intro H. apply res_loc with (x := 2) in H. vm_compute in H. discriminate.
Qed.
Print Assumptions C17_chained_refuted.

(** [o.f += m()] where [m] changes [o.f]: Python adds to the old value, the
    translation to the new one. *)
Theorem C17_augmented_refuted :
  exec_assign demo (tr_aug demo (TgtVar 1) (EField o 0) 0 (ECall 0 []) 0) l0 tm0 h0
  <> py_aug_assign demo (TgtVar 1) (EField o 0) 0 (ECall 0 []) l0 h0.
Proof.
  intro H. apply res_loc with (x := 1) in H. vm_compute in H. discriminate.
Qed.
Print Assumptions C17_augmented_refuted.

(** Nested, chained and attribute targets are assigned Python's values, in
    Python's order, and fail exactly when Python raises, if the targets do not
    overwrite what the right-hand side is read from, or if there is just one
    name or attribute.  (Starred targets: see C18.) *)
Theorem C17_assignment_partial : forall E l Inv ts e n tm h,
  env_ok E -> sound_typing E l Inv -> Inv h ->
  ordered E e = true -> keeps_value E false e = true ->
  forallb wf_target ts = true -> single ts || untouched E ts e = true ->
  (forall v h', py_eval E l e h = Ok v h' -> Forall (fun t => star_fits t v) ts) ->
  exec_assign E (tr_assign E ts e n) l tm h = py_assign_stmt E ts e l h.
Proof. exact assignment_right. Qed.
Print Assumptions C17_assignment_partial.

Theorem C17_augmented_partial : forall E l Inv t read op e n tm h,
  env_ok E -> sound_typing E l Inv -> Inv h ->
  single [t] = true -> wf_target t = true -> is_path read = true ->
  ordered E e = true -> keeps_value E false e = true ->
  negb (effectful e) || negb (reads E read) = true ->
  exec_assign E (tr_aug E t read op e n) l tm h = py_aug_assign E t read op e l h.
Proof. exact aug_right. Qed.
Print Assumptions C17_augmented_partial.

Example C17_example :
  (* [a, (o.f, b) = c = x3, (m2(x4), x5)] *)
  let ts := [TgtTuple [TgtVar 1; TgtTuple [TgtField o 0; TgtVar 2]]; TgtVar 6] in
  let e := ETuple [EVar 3; ETuple [ECall 2 [EVar 4]; EVar 5]] in
  ordered demo e = true /\ keeps_value demo false e = true /\
  forallb wf_target ts = true /\ untouched demo ts e = true /\
  (forall v h', py_eval demo l0 e h0 = Ok v h' -> Forall (fun t => star_fits t v) ts) /\
  match py_assign_stmt demo ts e l0 h0 with
  | Ok st _ => (a_loc st 1, a_loc st 2, a_loc st 6, a_heap st 0 0, a_ok st)
               = (VInt 3, VInt 5, VSeq [VInt 3; VSeq [VNone; VInt 5]], VNone, true)
  | _ => False
  end.
Proof.
  repeat split. intros v h' H. inversion H; subst. repeat constructor.
Qed.

(** a wrong number of values: Python raises, the assertion fails, in the same
    state *)
Example C17_example_wrong_length :
  exec_assign demo (tr_assign demo [TgtTuple [TgtVar 1; TgtVar 2]] (ETuple [EVar 3]) 0) l0 tm0 h0
  = Ok {| a_loc := l0; a_heap := h0; a_ok := false |} h0.
Proof. reflexivity. Qed.

(** ** C18: starred targets *)

Definition C18_statement : Prop :=
  forall E l Inv bs x cs e n tm h,
    env_ok E -> sound_typing E l Inv -> Inv h ->
    ordered E e = true -> keeps_value E false e = true ->
    untouched E [star_target bs x cs] e = true ->
    exec_assign E (tr_assign E [star_target bs x cs] e n) l tm h
    = py_assign_stmt E [star_target bs x cs] e l h.

(** [a, *b, c = 10, 20, 30, 40] assigns 30 to [c]: the targets after the star are
    indexed from the front. *)
Theorem C18_after_star_refuted : ~ C18_statement.
Proof.
  intro H.
  specialize (H demo l0 (fun _ => True) [1] 2 [3]
    (ETuple (map (fun z => EConst (VInt z)) [10; 20; 30; 40]%Z))
    0 tm0 h0 demo_ok (demo_typing l0) I eq_refl eq_refl eq_refl).
  apply res_loc with (x := 3) in H. vm_compute in H. discriminate.
Qed.
Print Assumptions C18_after_star_refuted.

(** All other variables get Python's values, the length check fails exactly when
    Python raises, and the heap is Python's: for any number of targets and of
    values. *)
Theorem C18_star_partial : forall E l Inv bs x cs e n tm h,
  env_ok E -> sound_typing E l Inv -> Inv h ->
  ordered E e = true -> keeps_value E false e = true ->
  untouched E [star_target bs x cs] e = true ->
  agree_except cs (exec_assign E (tr_assign E [star_target bs x cs] e n) l tm h)
                  (py_assign_stmt E [star_target bs x cs] e l h).
Proof. exact star_right. Qed.
Print Assumptions C18_star_partial.

(** With nothing after the star the assignment is Python's; the same holds if the
    star takes exactly one value. *)
Theorem C18_star_last_partial : forall E l Inv bs x cs e n tm h,
  env_ok E -> sound_typing E l Inv -> Inv h ->
  ordered E e = true -> keeps_value E false e = true ->
  untouched E [star_target bs x cs] e = true ->
  (cs = [] \/ forall vs h', py_eval E l e h = Ok (VSeq vs) h' ->
              length vs = length bs + 1 + length cs) ->
  exec_assign E (tr_assign E [star_target bs x cs] e n) l tm h
  = py_assign_stmt E [star_target bs x cs] e l h.
Proof. exact c18_star_last_partial. Qed.
Print Assumptions C18_star_last_partial.

Example C18_example :
  (* [a, *b, c = 10, 20, 30, 40] *)
  let e := ETuple (map (fun z => EConst (VInt z)) [10; 20; 30; 40]%Z) in
  untouched demo [star_target [1] 2 [3]] e = true /\ ordered demo e = true /\
  match py_assign_stmt demo [star_target [1] 2 [3]] e l0 h0 with
  | Ok st _ => (a_loc st 1, a_loc st 2, a_loc st 3) =
               (VInt 10, VSeq [VInt 20; VInt 30], VInt 40)
  | _ => False
  end /\
  match exec_assign demo (tr_assign demo [star_target [1] 2 [3]] e 0) l0 tm0 h0 with
  | Ok st _ => (a_loc st 1, a_loc st 2, a_loc st 3) =
               (VInt 10, VSeq [VInt 20; VInt 30], VInt 30)
  | _ => False
  end.
Proof. repeat split. Qed.
