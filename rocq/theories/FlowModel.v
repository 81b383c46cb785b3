(** Model of the control-flow translation (C21, C22). Paths are relative to
    /repo/src/nagini_translation. *)
From Coq Require Import List Bool Arith.
From Verif Require Import FlowSpec.
Import ListNotations.

(** Labels. In the code they are fresh strings (post_try, handlerX, try_else,
    try_finally, loop_end, post_loop, __end): analyzer.py:1890-1950,
    translators/statement.py:1704-1707. Distinctness is C02. translate_handler uses
    'post_' + try_block.name for the label that translate_stmt_Try calls post_name
    (method.py:876); both names are requested together (analyzer.py:1917-1922) and
    are taken to be the same. *)
Inductive label :=
| LPost (t : nat) | LHandler (t i : nat) | LElse (t : nat) | LFinally (t : nat)
| LLoopEnd (i : nat) | LPostLoop (i : nat) | LEnd.

(** Error variables: the one of a try block, or the one of the method
    (translators/common.py:846-865; in a method without declared exceptions the
    code creates a new variable outside of try blocks, here it is the same). *)
Definition evar := option nat.

Inductive vcond :=
| CUser (c : nat)
| CCode (t n : nat)              (* the finally variable of t equals n *)
| CErrSet (v : evar)             (* error variable != null *)
| CErrIs (v : evar) (c : nat).   (* isinstance(error variable, c) *)

(** Viper statements. *)
Inductive vstmt :=
| VAct (a : nat)
| VUse (a : nat) (v : evar)
| VCall (a : nat) (v : evar)     (* the error variable is an output argument *)
| VExc (x : nat) (v : evar)      (* error variable := exception *)
| VSetCode (t n : nat)
| VCopyCode (t t' : nat)         (* code of t := code of t' *)
| VSetRes (x : nat)
| VNullRes
| VNullErr
| VSetErr (v : evar)             (* method error variable := v *)
| VEnter (m : nat)
| VExit (m t : nat)
| VIf (c : vcond) (a b : list vstmt)
| VWhile (c : nat) (b : list vstmt)
| VLabel (l : label)
| VGoto (l : label)
| VFail.                         (* exhale false *)

(** A try block as the code sees it (lib/program_nodes.py:1518-1551): identity,
    classes of its handlers, has a finally block, has a with item, and the
    innermost loop around its node (get_parent_of_type, lib/util.py:278-284). *)
Record tinfo := {
  tid : nat;
  ths : list nat;
  tfin : bool;
  twith : bool;
  tloop : option nat
}.

(** The result of get_surrounding_try_blocks (lib/util.py:159-173): the blocks
    whose protected region, which is the body only (analyzer.py:1898, 1918),
    contains the statement, innermost first. The model passes it down while it
    descends into bodies instead of searching for it. *)
Definition env := list tinfo.

Definition errvar (E : env) : evar := match E with [] => None | t :: _ => Some (tid t) end.

(** expression.py:879-907 _create_goto_finally, and the loops at statement.py:1786,
    1822 and 1860: the first block with a finally block or a with item. *)
Fixpoint first_fw (E : env) : option nat :=
  match E with
  | [] => None
  | t :: E' => if tfin t || twith t then Some (tid t) else first_fw E'
  end.

(** method.py:735-746: the first block with a finally block. *)
Fixpoint first_fin (E : env) : option nat :=
  match E with
  | [] => None
  | t :: E' => if tfin t then Some (tid t) else first_fin E'
  end.

(** expression.py:836-864: the handlers of the blocks up to the first one with a
    finally block, tested in order. *)
Fixpoint handler_ifs (v : evar) (t i : nat) (cs : list nat) (rest : list vstmt) : list vstmt :=
  match cs with
  | [] => rest
  | c :: cs' => [VIf (CErrIs v c) [VGoto (LHandler t i)] (handler_ifs v t (S i) cs' rest)]
  end.
Fixpoint catch_cases (v : evar) (E : env) (uncaught : list vstmt) : list vstmt :=
  match E with
  | [] => uncaught
  | t :: E' =>
      handler_ifs v (tid t) 0 (ths t)
        (if tfin t then uncaught else catch_cases v E' uncaught)
  end.

(** expression.py:800-877 create_exception_catchers. *)
Definition catchers (declared : bool) (v : evar) (E : env) : list vstmt :=
  let uncaught :=
    match first_fw E with
    | Some t => [VSetCode t 2; VGoto (LFinally t)]
    | None => if declared then [VSetErr v; VGoto LEnd] else [VFail; VGoto LEnd]
    end in
  [VIf (CErrSet v) (catch_cases v E uncaught) []].

(** Aliases of names bound by "as" (method.py:857-863): name -> try block. *)
Definition aliases := list (nat * nat).

Fixpoint handler_classes (hs : handlers) : list nat :=
  match hs with HNil => [] | HCons c _ _ hs' => c :: handler_classes hs' end.

(** analyzer.py:1913-1950 visit_Try, 1890-1911 visit_With. *)
Definition try_info (t : nat) (hs : handlers) (f : stmts) (lp : option nat) : tinfo :=
  {| tid := t; ths := handler_classes hs; tfin := negb (is_nil f); twith := false; tloop := lp |}.
Definition with_info (t : nat) (lp : option nat) : tinfo :=
  {| tid := t; ths := []; tfin := false; twith := true; tloop := lp |}.

(** The statements at the place of the source statement: statement.py:908-965
    (With), 967-997 (Try), 1026-1032 (Raise), 1066-1086 (If), 1696-1744 (While,
    with _set_result_none 1757-1777), 1778-1833 (Break, Continue), 1835-1874
    (Return). [lp] is the innermost loop around the statement; for a statement in
    the else part of a loop get_parent_of_type yields that loop too. The rejection
    of continue in finally (1800-1811) is not modelled. Calls: the error variable is
    an output and is followed by the catchers (call.py). *)
Fixpoint inl_s (declared : bool) (E : env) (lp : option nat) (al : aliases) (s : stmt)
  : list vstmt :=
  match s with
  | SAct a => [VAct a]
  | SCall a => VCall a (errvar E) :: catchers declared (errvar E) E
  | SUse a x => match blookup al x with Some t => [VUse a (Some t)] | None => [VFail] end
  | SIf c a b => [VIf (CUser c) (inl_ss declared E lp al a) (inl_ss declared E lp al b)]
  | SWhile i c b o =>
      [VWhile c (inl_ss declared E (Some i) al b ++ [VLabel (LLoopEnd i)])] ++
      inl_ss declared E (Some i) al o ++
      [VLabel (LPostLoop i); VNullRes] ++ (if declared then [VNullErr] else [])
  | SBreak =>
      match first_fw E with
      | Some t => [VSetCode t 3; VGoto (LFinally t)]
      | None => match lp with Some i => [VGoto (LPostLoop i)] | None => [VFail] end
      end
  | SContinue =>
      match first_fw E with
      | Some t => [VSetCode t 4; VGoto (LFinally t)]
      | None => match lp with Some i => [VGoto (LLoopEnd i)] | None => [VFail] end
      end
  | SReturn v =>
      (match v with Some x => [VSetRes x] | None => [] end) ++
      (match first_fw E with
       | Some t => [VSetCode t 1; VGoto (LFinally t)]
       | None => [VGoto LEnd]
       end)
  | SRaise x => VExc x (errvar E) :: catchers declared (errvar E) E
  | STry t b hs o f =>
      [VSetCode t 0] ++ inl_ss declared (try_info t hs f lp :: E) lp al b ++
      (if is_nil o then (if is_nil f then [] else [VGoto (LFinally t)])
       else [VGoto (LElse t)]) ++
      [VLabel (LPost t)]
  | SWith t m b =>
      [VEnter m; VSetCode t 0] ++ inl_ss declared (with_info t lp :: E) lp al b ++
      [VGoto (LFinally t); VLabel (LPost t)]
  end
with inl_ss (declared : bool) (E : env) (lp : option nat) (al : aliases) (ss : stmts)
  : list vstmt :=
  match ss with
  | SNil => []
  | SCons s ss' => inl_s declared E lp al s ++ inl_ss declared E lp al ss'
  end.

(** method.py:867-887: the end of a handler. *)
Definition handler_end (t : nat) (fin : bool) : list vstmt :=
  if fin then [VSetCode t 0; VGoto (LFinally t)] else [VGoto (LPost t)].

Definition add_alias (x : option nat) (t : nat) (al : aliases) : aliases :=
  match x with Some y => (y, t) :: al | None => al end.

(** method.py:842-887 translate_handler for the handlers of a block. The dictionary
    of aliases is shared by all handlers and the else block of the try
    (method.py:853, 861), so earlier names stay in it. *)
Fixpoint handler_pieces (declared : bool) (E : env) (lp : option nat) (al : aliases)
         (t i : nat) (fin : bool) (hs : handlers) : list vstmt :=
  match hs with
  | HNil => []
  | HCons c x b hs' =>
      [VLabel (LHandler t i)] ++ inl_ss declared E lp (add_alias x t al) b ++
      handler_end t fin ++
      handler_pieces declared E lp (add_alias x t al) t (S i) fin hs'
  end.
Fixpoint handler_aliases (t : nat) (al : aliases) (hs : handlers) : aliases :=
  match hs with HNil => al | HCons _ x _ hs' => handler_aliases t (add_alias x t al) hs' end.

(** method.py:747-770: the handler tests after a finally block, one after the other;
    the loop stops at the first block with a finally block, to which the code is
    handed on. *)
Definition seq_ifs (v : evar) (t : nat) (cs : list nat) : list vstmt :=
  map (fun p => VIf (CErrIs v (snd p)) [VGoto (LHandler t (fst p))] [])
      (combine (seq 0 (length cs)) cs).
Fixpoint except_walk (t : nat) (E : env) : list vstmt :=
  match E with
  | [] => []
  | b :: E' =>
      seq_ifs (Some t) (tid b) (ths b) ++
      (if tfin b then [VCopyCode (tid b) t; VGoto (LFinally (tid b))] else except_walk t E')
  end.

(** method.py:772-785: tries_in_same_loop (715-717). *)
Definition same_loop (lp : option nat) (E : env) : env :=
  match lp with
  | None => []
  | Some i => filter (fun b => match tloop b with Some j => i =? j | None => false end) E
  end.

(** method.py:663-840 translate_finally, after the body of the block. *)
Definition finally_end (declared : bool) (E : env) (lp : option nat) (t : nat) : list vstmt :=
  let return_block :=
    match first_fin E with
    | Some t' => [VCopyCode t' t; VGoto (LFinally t')]
    | None => [VGoto LEnd]
    end in
  let except_block :=
    except_walk t E ++
    (if declared then [VSetErr (Some t); VGoto LEnd] else [VFail; VGoto LEnd]) in
  let loop_block (l : label) :=
    match first_fin (same_loop lp E) with
    | Some t' => [VCopyCode t' t; VGoto (LFinally t')]
    | None => [VGoto l]
    end in
  let if_return := [VIf (CCode t 1) return_block [VGoto (LPost t)]] in
  let if_except := [VIf (CCode t 2) except_block if_return] in
  match lp with
  | None => if_except
  | Some i =>
      [VIf (CCode t 4) (loop_block (LLoopEnd i))
         [VIf (CCode t 3) (loop_block (LPostLoop i)) if_except]]
  end.

(** method.py:529-541 _translate_try_handlers: the code of handlers, else blocks
    and finally blocks, which is put at the end of the method. The finally body is
    translated without aliases (method.py:547). *)
Fixpoint def_s (declared : bool) (E : env) (lp : option nat) (al : aliases) (s : stmt)
  : list vstmt :=
  match s with
  | SIf _ a b => def_ss declared E lp al a ++ def_ss declared E lp al b
  | SWhile i _ b o => def_ss declared E (Some i) al b ++ def_ss declared E (Some i) al o
  | STry t b hs o f =>
      handler_pieces declared E lp al t 0 (negb (is_nil f)) hs ++
      (if is_nil o then [] else
         [VLabel (LElse t)] ++ inl_ss declared E lp (handler_aliases t al hs) o ++
         handler_end t (negb (is_nil f))) ++
      (if is_nil f then [] else
         [VLabel (LFinally t)] ++ inl_ss declared E lp [] f ++ finally_end declared E lp t) ++
      def_ss declared (try_info t hs f lp :: E) lp al b ++
      def_h declared E lp al t hs ++
      def_ss declared E lp (handler_aliases t al hs) o ++
      def_ss declared E lp [] f
  | SWith t m b =>
      def_ss declared (with_info t lp :: E) lp al b ++
      [VLabel (LFinally t); VExit m t] ++ finally_end declared E lp t
  | _ => []
  end
with def_ss (declared : bool) (E : env) (lp : option nat) (al : aliases) (ss : stmts)
  : list vstmt :=
  match ss with
  | SNil => []
  | SCons s ss' => def_s declared E lp al s ++ def_ss declared E lp al ss'
  end
with def_h (declared : bool) (E : env) (lp : option nat) (al : aliases) (t : nat) (hs : handlers)
  : list vstmt :=
  match hs with
  | HNil => []
  | HCons _ x b hs' =>
      def_ss declared E lp (add_alias x t al) b ++ def_h declared E lp (add_alias x t al) t hs'
  end.

(** method.py:543-551 and 558-623: the body of the generated method (without
    contracts and the obligations epilog). *)
Definition tr_method (declared : bool) (ss : stmts) : list vstmt :=
  [VNullRes; VNullErr] ++ inl_ss declared [] None [] ss ++ [VGoto LEnd] ++
  def_ss declared [] None [] ss ++ [VLabel LEnd].

(** ** Operational semantics of the generated code. Gotos continue at the label,
    wherever it is; loops are iterated (their invariants are not modelled). *)

Record vstate (U : Type) := {
  vu : U;                        (* user-visible state *)
  vres : option nat;             (* result variable; None is null *)
  vmerr : option nat;            (* error variable of the method *)
  verr : nat -> option nat;      (* error variables of try blocks *)
  vcode : nat -> nat             (* finally variables *)
}.
Arguments vu {U}. Arguments vres {U}. Arguments vmerr {U}. Arguments verr {U}. Arguments vcode {U}.

Definition upd {A} (f : nat -> A) (k : nat) (v : A) (x : nat) : A := if x =? k then v else f x.

Definition set_u {U} (u : U) (s : vstate U) : vstate U :=
  {| vu := u; vres := vres s; vmerr := vmerr s; verr := verr s; vcode := vcode s |}.
Definition set_res {U} (r : option nat) (s : vstate U) : vstate U :=
  {| vu := vu s; vres := r; vmerr := vmerr s; verr := verr s; vcode := vcode s |}.
Definition set_err {U} (v : evar) (e : option nat) (s : vstate U) : vstate U :=
  match v with
  | None => {| vu := vu s; vres := vres s; vmerr := e; verr := verr s; vcode := vcode s |}
  | Some t => {| vu := vu s; vres := vres s; vmerr := vmerr s; verr := upd (verr s) t e; vcode := vcode s |}
  end.
Definition set_code {U} (t n : nat) (s : vstate U) : vstate U :=
  {| vu := vu s; vres := vres s; vmerr := vmerr s; verr := verr s; vcode := upd (vcode s) t n |}.
Definition get_err {U} (v : evar) (s : vstate U) : option nat :=
  match v with None => vmerr s | Some t => verr s t end.

Definition ceval {U} (w : world U) (c : vcond) (s : vstate U) : bool :=
  match c with
  | CUser c => cond w c (vu s)
  | CCode t n => vcode s t =? n
  | CErrSet v => match get_err v s with Some _ => true | None => false end
  | CErrIs v c => match get_err v s with Some e => isinst w e c | None => false end
  end.

(** A continuation: what remains to be done around the current statements. *)
Inductive cont :=
| KStop
| KSeq (r : list vstmt) (k : cont)
| KLoop (c : nat) (b r : list vstmt) (k : cont).

Definition label_eqb (a b : label) : bool :=
  match a, b with
  | LPost x, LPost y | LElse x, LElse y | LFinally x, LFinally y
  | LLoopEnd x, LLoopEnd y | LPostLoop x, LPostLoop y => x =? y
  | LHandler x i, LHandler y j => (x =? y) && (i =? j)
  | LEnd, LEnd => true
  | _, _ => false
  end.

Definition orelse {A} (a b : option A) : option A := match a with Some x => Some x | None => b end.

(** Where a label is, and what remains to be done there. *)
Fixpoint find_s (l : label) (s : vstmt) (r : list vstmt) (k : cont) {struct s}
  : option (list vstmt * cont) :=
  match s with
  | VLabel l' => if label_eqb l l' then Some (r, k) else None
  | VIf _ a b =>
      orelse ((fix go (ss : list vstmt) :=
                 match ss with
                 | [] => None
                 | x :: ss' => orelse (find_s l x ss' (KSeq r k)) (go ss')
                 end) a)
             ((fix go (ss : list vstmt) :=
                 match ss with
                 | [] => None
                 | x :: ss' => orelse (find_s l x ss' (KSeq r k)) (go ss')
                 end) b)
  | VWhile c b =>
      (fix go (ss : list vstmt) :=
         match ss with
         | [] => None
         | x :: ss' => orelse (find_s l x ss' (KLoop c b r k)) (go ss')
         end) b
  | _ => None
  end.
Fixpoint find_label (l : label) (ss : list vstmt) (k : cont) : option (list vstmt * cont) :=
  match ss with
  | [] => None
  | x :: ss' => orelse (find_s l x ss' k) (find_label l ss' k)
  end.

Inductive config (U : Type) :=
| Run (ss : list vstmt) (k : cont) (s : vstate U)
| Failed          (* a verification error *)
| Stuck.          (* goto without label *)
Arguments Run {U}. Arguments Failed {U}. Arguments Stuck {U}.

Definition jump {U} (P : list vstmt) (l : label) (s : vstate U) : config U :=
  match find_label l P KStop with
  | Some (r, k) => Run r k s
  | None => Stuck
  end.

(** method.py:625-661 _assign_exit_vars: [code > 1]. *)
Definition exit_arg {U} (t : nat) (s : vstate U) : option nat :=
  if 1 <? vcode s t then verr s t else None.

Definition vstep {U} (w : world U) (P : list vstmt) (c : config U) : option (config U) :=
  match c with
  | Run [] KStop s => None
  | Run [] (KSeq r k) s => Some (Run r k s)
  | Run [] (KLoop c b r k) s => Some (Run (VWhile c b :: r) k s)
  | Run (x :: r) k s =>
      match x with
      | VAct a => Some (Run r k (set_u (act w a (vu s)) s))
      | VUse a v =>
          match get_err v s with
          | Some e => Some (Run r k (set_u (use w a e (vu s)) s))
          | None => Some Failed
          end
      | VCall a v =>
          let (u', e) := call w a (vu s) in Some (Run r k (set_err v e (set_u u' s)))
      | VExc x v => Some (Run r k (set_err v (Some (exc w x (vu s))) s))
      | VSetCode t n => Some (Run r k (set_code t n s))
      | VCopyCode t t' => Some (Run r k (set_code t (vcode s t') s))
      | VSetRes x => Some (Run r k (set_res (Some (value w x (vu s))) s))
      | VNullRes => Some (Run r k (set_res None s))
      | VNullErr => Some (Run r k (set_err None None s))
      | VSetErr v => Some (Run r k (set_err None (get_err v s) s))
      | VEnter m => Some (Run r k (set_u (enter w m (vu s)) s))
      | VExit m t => Some (Run r k (set_u (fst (exit w m (exit_arg t s) (vu s))) s))
      | VIf c a b => Some (Run (if ceval w c s then a else b) (KSeq r k) s)
      | VWhile c b =>
          if cond w c (vu s) then Some (Run b (KLoop c b r k) s) else Some (Run r k s)
      | VLabel _ => Some (Run r k s)
      | VGoto l => Some (jump P l s)
      | VFail => Some Failed
      end
  | Failed | Stuck => None
  end.

(** Run until the machine stops. *)
Fixpoint vrun {U} (w : world U) (P : list vstmt) (n : nat) (c : config U) : option (config U) :=
  match vstep w P c with
  | None => Some c
  | Some c' => match n with O => None | S n' => vrun w P n' c' end
  end.

(** The verified method started in state [u] with arbitrary values in its
    uninitialised local variables: it ends in the configuration [c]. *)
Definition viper_ends {U} (w : world U) (declared : bool) (ss : stmts) (s0 : vstate U)
           (c : config U) : Prop :=
  exists n, vrun w (tr_method declared ss) n (Run (tr_method declared ss) KStop s0) = Some c.

(** What the verifier sees at the end of the method: an unexpected exception is an
    error, otherwise the result and error variables are the outputs. *)
Definition viper_agrees {U} (declared : bool) (r : ending) (u' : U) (c : config U) : Prop :=
  match r with
  | Returns v => exists s, c = Run [] KStop s /\ vu s = u' /\ vres s = v /\ vmerr s = None
  | Raises e =>
      if declared then exists s, c = Run [] KStop s /\ vu s = u' /\ vmerr s = Some e
      else c = Failed
  end.
