(** C24: conversion of the verifier's errors. C37: positions in the texts and
    diagnostics shown to the user. C38: removal of duplicates. *)
From Coq Require Import Bool Arith NArith ZArith Ascii String List.
From Verif Require Import ErrModel ErrSpec ErrProofs.
Import ListNotations.
Open Scope list_scope.

(** * C24 *)

(** For every translation (a history [h] of requests for positions after the
    manager was cleared) and every list of errors about its positions: conversion
    succeeds, gives one report per error in the same order, and each report of an
    error that is not a timeout carries the node and the vias registered for the
    position that failed, the item registered for the position of the reason, and
    ids renamed by the registered rules (see [rules_choice]). *)
Theorem C24_conversion : forall m0 h ps m es,
  translation (clear m0) h = Some (ps, m) -> Forall (error_of h) es ->
  exists out, convert m es = Some out /\
    Forall2 (fun e o => if ve_timeout e then p_timeout o = true /\ p_pos o = ve_pos e
                        else report_ok h e o) es out.
Proof. exact c24_conversion. Qed.
Print Assumptions C24_conversion.

(** The position returned for a request shows file, line and column of the node of
    that request. *)
Theorem C24_positions : forall h m0 ps m,
  translation m0 h = Some (ps, m) ->
  Forall2 (fun g p => match n_pos (g_node g) with
                      | Some (l, c, e) => p = IdPos (g_file g) l c e (g_id g)
                      | None => p = NoPos end) h ps.
Proof. exact c24_positions. Qed.
Print Assumptions C24_positions.

(** With fresh ids no request is rejected. *)
Theorem C24_fresh_ids : forall h m0,
  NoDup (map g_id h) ->
  (forall g, In g h -> lookup (g_id g) (items m0) = None) ->
  exists ps m, translation m0 h = Some (ps, m).
Proof. exact c24_fresh_ids. Qed.
Print Assumptions C24_fresh_ids.

(** A position of an earlier translation is not explained by the current one: the
    request fails instead of reporting a wrong node. *)
Theorem C24_stale_position : forall m0 h ps m f l c e id,
  translation (clear m0) h = Some (ps, m) ->
  (forall g, In g h -> g_id g <> id) ->
  get_item m (IdPos f l c e id) = None.
Proof. exact c24_stale_position. Qed.
Print Assumptions C24_stale_position.

(** Concrete history: a precondition with two conjuncts and a statement. *)
Definition t (s : string) : str := list_ascii_of_string s.
Definition nd (i : nat) (l c : N) : pynode := {| n_id := i; n_pos := Some (l, c, None) |}.
Definition demo_reg (i : nat) (l c : N) (r : option rules) : reg :=
  {| g_id := i; g_file := t "a.py"; g_node := nd i l c; g_vias := []; g_reason := None; g_rules := r |}.
Definition rule1 : rules := [((t "precondition", t "false"), (t "call.leak", t "leaked"))].
Definition rule2 : rules := [((t "precondition", t "false"), (t "call.pre", t "pre.false"))].
Definition demo_hist : list reg :=
  [demo_reg 1 3 4 (Some rule1); demo_reg 2 4 4 (Some rule2); demo_reg 3 9 0 None].
Definition P (i : nat) (l c : N) : vpos := IdPos (t "a.py") l c None i.
Definition demo_error : verror :=
  {| ve_timeout := false; ve_id := t "precondition"; ve_pos := P 3 9 0;
     ve_node := VAtom (P 3 9 0);
     ve_reason := Some {| vr_id := t "false"; vr_node := VAtom (P 2 4 4) |} |}.

Lemma demo_position : forall i l c, In (demo_reg i l c None) demo_hist \/
  In (demo_reg i l c (Some rule1)) demo_hist \/ In (demo_reg i l c (Some rule2)) demo_hist ->
  position_of demo_hist (P i l c).
Proof.
  intros i l c H. unfold P. cbn [position_of].
  destruct H as [H|[H|H]]; eexists; (split; [exact H|]); exists l, c, None; split; reflexivity.
Qed.

Example C24_demo : exists ps m out,
  translation (clear {| items := []; crules := [] |}) demo_hist = Some (ps, m) /\
  Forall (error_of demo_hist) [demo_error] /\
  convert m [demo_error] = Some [out] /\
  p_id out = t "call.pre" /\ p_node out = Some (nd 3 9 0).
Proof.
  eexists. eexists. eexists. split; [reflexivity|]. split; [|split; [reflexivity|split; reflexivity]].
  constructor; [|constructor]. split; [apply demo_position; cbn; tauto|].
  split; intros q Q; inversion Q; subst; apply demo_position; cbn; tauto.
Qed.

(** The renaming rule of another conjunct is used when the conjunction itself has
    none: the error is about the second conjunct, for which rules are registered,
    but those of the first are applied. *)
Theorem C24_own_rules_refuted : exists m0 h ps m e vr r o,
  translation (clear m0) h = Some (ps, m) /\ error_of h e /\
  ve_timeout e = false /\ ve_reason e = Some vr /\
  part (ve_node e) (vr_node vr) /\
  rules_at h (node_pos (vr_node vr)) r /\
  convert_error m e = Some o /\
  exists v, rule_lookup (ve_id e, vr_id vr) r = Some v /\ p_id o <> fst v.
Proof.
  exists {| items := []; crules := [] |}, demo_hist. eexists. eexists.
  exists {| ve_timeout := false; ve_id := t "precondition"; ve_pos := P 3 9 0;
     ve_node := VAnd (P 3 9 0) (VAtom (P 1 3 4)) (VAtom (P 2 4 4));
     ve_reason := Some {| vr_id := t "false"; vr_node := VAtom (P 2 4 4) |} |}.
  eexists. exists rule2. eexists. split; [reflexivity|]. split; [|split; [reflexivity|split; [reflexivity|]]].
  - split; [apply demo_position; cbn; tauto|].
    split; intros q Q; inversion Q as [| ? ? ? ? Q' | ? ? ? ? Q' | |]; subst;
      try inversion Q'; subst; apply demo_position; cbn; tauto.
  - split; [apply part_and_r; apply part_refl|]. split.
    + split; [discriminate|]. exists (demo_reg 2 4 4 (Some rule2)). split; [|reflexivity].
      split; [cbn; tauto|]. exists 4%N, 4%N, None. split; reflexivity.
    + split; [reflexivity|]. eexists. split; [reflexivity|]. discriminate.
Qed.
Print Assumptions C24_own_rules_refuted.

(** A converted timeout, like every error without reason, makes the service fail:
    no diagnostics are returned at all, also for the other errors. *)
Theorem C24_timeout_diagnostics_refuted : exists m e o, forall mk rs,
  ve_timeout e = true /\ convert_error m e = Some o /\
  failure_diagnostics mk (rs ++ [o]) = None.
Proof.
  exists {| items := []; crules := [] |},
    {| ve_timeout := true; ve_id := t "timeout"; ve_pos := NoPos; ve_node := VAtom NoPos; ve_reason := None |}.
  eexists. intros mk rs. split; [reflexivity|]. split; [reflexivity|].
  eapply c38_diag_crash; [apply in_or_app; right; left; reflexivity|reflexivity].
Qed.
Print Assumptions C24_timeout_diagnostics_refuted.

(** ** Branch conditions *)

(** The displayed text of a negated condition: one negation is removed from a
    negated condition, all others are wrapped in one. *)
Theorem C24_negated_condition_partial : forall c,
  negate_condition (lit "(not " ++ c ++ lit ")") = c /\
  (starts_with (lit "(not ") c = false -> negate_condition c = lit "(not " ++ c ++ lit ")").
Proof. exact c24_negated_condition. Qed.
Print Assumptions C24_negated_condition_partial.
Example C24_negated_condition_ex :
  negate_condition (t "(not (x > 0))") = t "(x > 0)" /\ negate_condition (t "x") = t "(not x)".
Proof. split; reflexivity. Qed.

(** A condition that starts with a negated operand and ends with a parenthesis is
    cut up. *)
Theorem C24_negated_condition_refuted : exists a b,
  let c := lit "(not " ++ a ++ lit ") == (" ++ b ++ lit ")" in
  negate_condition c = a ++ lit ") == (" ++ b /\ negate_condition c <> lit "(not " ++ c ++ lit ")".
Proof. exists (t "a"), (t "b or c"). split; [reflexivity|discriminate]. Qed.
Print Assumptions C24_negated_condition_refuted.

(** Every condition of the program is shown, with its position. *)
Theorem C24_branch_condition : forall c neg pos,
  contains (lit ".sil") pos = false -> pos <> lit "<no position>" ->
  branch_condition c neg pos = Some ((if neg then negate_condition c else c) ++ lit " at " ++ pos).
Proof. exact c24_branch_condition. Qed.
Print Assumptions C24_branch_condition.
Example C24_branch_condition_ex :
  branch_condition (t "x") true (t "a.py@3.4") = Some (t "(not x) at a.py@3.4").
Proof. reflexivity. Qed.

(** Only [".sil"] anywhere in the position decides: conditions of a program below a
    directory such as [my.silly] are hidden. *)
Theorem C24_branch_condition_refuted : exists c pos,
  pos = t "my.silly/a.py@3.4" /\ branch_condition c false pos = None.
Proof. exists (t "x"), (t "my.silly/a.py@3.4"). split; reflexivity. Qed.
Print Assumptions C24_branch_condition_refuted.

(** * C37 *)

(** Messages of the type checker are parsed back, with or without column and end,
    if no colon in the file name is followed by a digit and the text is one line. *)
Theorem C37_type_message : forall f l c msg, plain_file f -> one_line msg ->
  match_type_error (type_message f l c msg)
  = Some {| m_file := f; m_line := l;
            m_col := match c with Some (c, _) => Some c | None => None end;
            m_end := match c with Some (_, e) => e | None => None end;
            m_msg := msg |}.
Proof. exact c37_type_message. Qed.
Print Assumptions C37_type_message.
Example C37_type_message_ex :
  match_type_error (t "C:/x/a.py:12:3: error: Name: ""y"" is not defined")
  = Some {| m_file := t "C:/x/a.py"; m_line := 12; m_col := Some 3%N; m_end := None;
            m_msg := t "Name: ""y"" is not defined" |}
  /\ plain_file (t "C:/x/a.py") /\ one_line (t "Name: ""y"" is not defined").
Proof.
  split; [reflexivity|]. split.
  - cbn. repeat split; try discriminate; intros; reflexivity.
  - unfold one_line. cbn. intros H. repeat (destruct H as [H|H]; [discriminate H|]). exact H.
Qed.

(** Diagnostics for such messages: the file of the message (the given path for the
    main module), its line, its column
    (0-based), its end if there is one and otherwise its start. *)
Theorem C37_type_diagnostic : forall path f l c msg, plain_file f -> one_line msg ->
  let d := type_diagnostic path (type_message f l c msg) in
  (f <> lit "__main__" -> d_file d = f) /\ (f = lit "__main__" -> d_file d = path) /\
  d_line d = Z.of_N l /\
  d_col d = match c with Some (c, _) => Z.of_N c - 1 | None => 0 end%Z /\
  d_end_line d = match c with Some (_, Some (el, _)) => Z.of_N el | _ => Z.of_N l end /\
  d_end_col d = match c with
                | Some (_, Some (_, ec)) => Z.of_N ec
                | Some (c, None) => Z.of_N c - 1
                | None => 0 end%Z /\
  d_msg d = lit "Type error: " ++ msg.
Proof. exact c37_type_diagnostic. Qed.
Print Assumptions C37_type_diagnostic.
Example C37_type_diagnostic_ex :
  d_col (type_diagnostic (t "p.py") (t "a.py:12:3: error: x")) = 2%Z /\
  d_line (type_diagnostic (t "p.py") (t "a.py:12:3: error: x")) = 12%Z.
Proof. split; reflexivity. Qed.

(** The IDE format of translation errors is parsed back by the same pattern:
    columns are 1-based, and a missing end is the start. *)
Theorem C37_ide_translation_error : forall f l c el ec msg, plain_file f -> one_line msg ->
  match_type_error (format_translation_error true f msg l c el ec)
  = Some {| m_file := f; m_line := l; m_col := Some (c + 1)%N;
            m_end := Some (match el with Some x => x | None => l end,
                           match ec with Some x => x + 1 | None => c + 1 end)%N;
            m_msg := msg |}.
Proof. exact c37_ide_translation_error. Qed.
Print Assumptions C37_ide_translation_error.
Example C37_ide_translation_error_ex :
  format_translation_error true (t "a.py") (t "Invalid program: x") 3 4 (Some 3%N) None
  = t "a.py:3:5:3:5: error: Invalid program: x".
Proof. reflexivity. Qed.

(** A verification error with a reason: the text in IDE mode is parsed back to
    file, line and column of the request that failed. *)
Theorem C37_ide_verification_error : forall m0 h ps m e o g l c en msg reason readable,
  translation (clear m0) h = Some (ps, m) -> error_of h e ->
  ve_timeout e = false -> ve_reason e <> None ->
  made_for h (ve_pos e) g -> n_pos (g_node g) = Some (l, c, en) ->
  plain_file (g_file g) -> one_line msg -> one_line reason ->
  convert_error m e = Some o ->
  exists s, error_string_ide o msg reason readable = Some s /\
  match_type_error s
  = Some {| m_file := g_file g; m_line := l; m_col := Some (c + 1)%N;
            m_end := Some match en with Some (el, ec) => (el, ec + 1)%N | None => (l, c + 1)%N end;
            m_msg := msg ++ lit " " ++ reason |}.
Proof. exact c37_ide_verification_error. Qed.
Print Assumptions C37_ide_verification_error.
Example C37_ide_verification_error_ex : exists ps m o,
  translation (clear {| items := []; crules := [] |}) demo_hist = Some (ps, m) /\
  convert_error m demo_error = Some o /\
  error_string_ide o (t "Precondition might not hold.") (t "x might be false") (t "")
  = Some (t "a.py:9:1:9:1: error: Precondition might not hold. x might be false").
Proof. eexists. eexists. eexists. split; [reflexivity|]. split; reflexivity. Qed.

(** The readable format determines line and column, and file and text if file names
    contain no parenthesis. *)
Theorem C37_human_format : forall f m l c f' m' l' c',
  format_translation_error false f m l c None None
  = format_translation_error false f' m' l' c' None None ->
  l = l' /\ c = c' /\ (~ In "("%char f -> ~ In "("%char f' -> f = f' /\ m = m').
Proof. exact c37_human_format. Qed.
Print Assumptions C37_human_format.
Example C37_human_format_ex :
  format_translation_error false (t "a.py") (t "Invalid program: x (y@1.2)") 3 4 None None
  = t "Invalid program: x (y@1.2) (a.py@3.4)".
Proof. reflexivity. Qed.

(** Positions of invalid programs, if the node is in the file given by the user. *)
Theorem C37_exception_position_partial : forall path code x l c e,
  n_pos (x_node x) = Some (l, c, e) -> x_file x = path ->
  d_file (exception_diagnostic path code x) = x_file x /\
  d_line (exception_diagnostic path code x) = Z.of_N l /\
  d_col (exception_diagnostic path code x) = Z.of_N c /\
  d_msg (exception_diagnostic path code x) = x_msg x /\
  (plain_file path -> one_line (x_msg x) ->
   exists p, match_type_error (print_exception true path x) = Some p /\
     m_file p = x_file x /\ m_line p = l /\ m_col p = Some (c + 1)%N /\
     m_end p = Some match e with Some (el, ec) => (el, ec + 1)%N | None => (l, c + 1)%N end /\
     m_msg p = x_msg x).
Proof. exact c37_exception_position. Qed.
Print Assumptions C37_exception_position_partial.
Example C37_exception_position_ex :
  print_exception false (t "a.py") {| x_file := t "a.py"; x_node := nd 1 7 2; x_msg := t "Not supported: g" |}
  = t "Not supported: g (a.py@7.2)".
Proof. reflexivity. Qed.

(** Missing: nodes in imported modules. They are reported with the path of the main
    file. *)
Theorem C37_exception_file_refuted : exists path code x l c,
  n_pos (x_node x) = Some (l, c, None) /\ x_file x <> path /\
  d_file (exception_diagnostic path code x) = path /\
  exists p, match_type_error (print_exception true path x) = Some p /\ m_file p = path.
Proof.
  exists (t "main.py"), (t "invalid"),
    {| x_file := t "lib.py"; x_node := nd 1 7 2; x_msg := t "m" |}, 7%N, 2%N.
  split; [reflexivity|]. split; [discriminate|]. split; [reflexivity|].
  eexists. split; reflexivity.
Qed.
Print Assumptions C37_exception_file_refuted.

(** A text with two lines is not recognised: the diagnostic then points at line 1 of
    the main file. *)
Theorem C37_multiline_refuted : exists f msg, plain_file f /\
  match_type_error (type_message f 12 None msg) = None /\
  d_line (type_diagnostic (t "main.py") (type_message f 12 None msg)) = 1%Z.
Proof.
  exists (t "a.py"), (t "x" ++ [newline] ++ t "y"). split; [|split; reflexivity].
  cbn. repeat split; discriminate.
Qed.
Print Assumptions C37_multiline_refuted.

(** A file name with a colon before a digit is cut. *)
Theorem C37_colon_file_refuted : exists f p,
  f = t "a:12" /\ match_type_error (type_message f 3 None (t "m")) = Some p /\
  m_file p = t "a" /\ m_line p = 12%N.
Proof. exists (t "a:12"). eexists. split; [reflexivity|]. split; [reflexivity|split; reflexivity]. Qed.
Print Assumptions C37_colon_file_refuted.

(** A verification error without position cannot be printed in IDE mode. *)
Theorem C37_no_position_refuted : exists m e o,
  convert_error m e = Some o /\ ve_pos e = NoPos /\
  error_string_ide o (t "m") (t "r") (t "") = None.
Proof.
  exists {| items := []; crules := [] |},
    {| ve_timeout := false; ve_id := t "x"; ve_pos := NoPos; ve_node := VAtom NoPos;
       ve_reason := Some {| vr_id := t "y"; vr_node := VAtom NoPos |} |}.
  eexists. split; [reflexivity|]. split; reflexivity.
Qed.
Print Assumptions C37_no_position_refuted.

(** * C38 *)

(** The printed messages are exactly the first occurrences, in order: none twice,
    none missing. *)
Theorem C38_messages : forall l,
  failure_to_string l = lit "Verification failed" ++ [newline] ++ lit "Errors:" ++ [newline] ++
                        join [newline] (first_occurrences str_eqb l) /\
  NoDup (first_occurrences str_eqb l) /\
  (forall x, In x (first_occurrences str_eqb l) <-> In x l).
Proof. exact c38_messages. Qed.
Print Assumptions C38_messages.
Example C38_messages_ex :
  first_occurrences str_eqb [t "b"; t "a"; t "b"; t "c"; t "a"] = [t "b"; t "a"; t "c"].
Proof. reflexivity. Qed.

(** The service keeps the first diagnostic for every combination of file, line,
    column, code and message, in order. *)
Theorem C38_diagnostics_partial : forall mk rs, (forall r, In r rs -> p_reason r <> None) ->
  failure_diagnostics mk rs = Some (first_occurrences diag_key_eqb (map mk rs)) /\
  (forall a b, diag_key_eqb a b = true <->
     v_file a = v_file b /\ v_line a = v_line b /\ v_col a = v_col b /\ v_code a = v_code b /\ v_msg a = v_msg b) /\
  (forall r, In r rs -> exists d, In d (first_occurrences diag_key_eqb (map mk rs)) /\
                                  diag_key_eqb d (mk r) = true).
Proof. exact c38_diagnostics_partial. Qed.
Print Assumptions C38_diagnostics_partial.

(** Missing: two errors that differ only in their reason are one diagnostic. *)
Definition mk_demo (r : report) : vdiag :=
  {| v_file := t "a.py"; v_line := 1; v_col := 2; v_code := p_id r; v_msg := t "Assert might fail.";
     v_reason := match p_reason r with Some (x, _) => x | None => [] end; v_rest := [] |}.
Definition demo_report (reason : str) : report :=
  {| p_timeout := false; p_id := t "assert.failed:assertion.false"; p_reason := Some (reason, None);
     p_node := None; p_vias := None; p_pos := NoPos |}.
Example C38_diagnostics_ex :
  (forall r, In r [demo_report (t "x"); demo_report (t "y")] -> p_reason r <> None).
Proof. intros r [<-|[<-|[]]]; discriminate. Qed.
Theorem C38_reason_refuted : exists mk r1 r2 d,
  failure_diagnostics mk [r1; r2] = Some [d] /\ v_reason (mk r1) <> v_reason (mk r2).
Proof.
  exists mk_demo, (demo_report (t "Assertion x might not hold.")), (demo_report (t "Assertion y might not hold.")).
  eexists. split; [reflexivity|discriminate].
Qed.
Print Assumptions C38_reason_refuted.
