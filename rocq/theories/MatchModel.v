(** Model of the translation of [match] statements.

    Source: src/nagini_translation/translators/statement.py
      translate_stmt_Match                    1088-1129
      _collect_guard_aliases                  1131-1139
      _translate_match_pattern_cond           1187-1269
      _translate_match_pattern_assignments    1280-1317
      _translate_match_pattern_defines        1319-1347

    Simplifications: positions, the case bodies (only the index of the chosen
    case is kept) and the unsupported patterns (positional class patterns,
    sequences, mappings: the translator raises) are left out; [==] of the
    subject's static class is [eqv]. *)
From Coq Require Import List Bool Arith.
From Verif Require Import ExprSpec MatchSpec.
Import ListNotations.

(** Viper expressions for the subject and its fields: [subj_var.ref()] and
    [self.viper.FieldAccess(subj, field.sil_field, ...)] (lines 1096, 1241, 1309). *)
Inductive place : Type :=
| Subj
| FieldOf (s : place) (f : nat).

(** Viper conditions produced by the pattern translation. *)
Inductive cond : Type :=
| CTrue
| CIsNull (s : place)
| CIsBool (s : place)
| CUnbox (s : place)
| CNot (c : cond)
| CEq (s : place) (w : val)
| CInst (s : place) (k : nat)
| CAnd (a b : cond)
| COr (a b : cond)
| CGuard (g : locals -> bool) (aliases : list nat).

(** _translate_match_pattern_cond, statement.py 1187-1269. *)
Fixpoint tr_cond (p : pattern) (s : place) : cond :=
  match p with
  | PWild | PCap _ => CTrue                                   (* 1193-1195 *)
  | PAs p _ => tr_cond p s                                    (* 1196-1197 *)
  | PNone => CIsNull s                                        (* 1200-1203 *)
  | PBool b => CAnd (CIsBool s) (if b then CUnbox s else CNot (CUnbox s))  (* 1204-1215 *)
  | PVal w => CEq s w                                         (* 1218-1226 *)
  | PClass c kws =>                                           (* 1228-1250 *)
      (fix go acc kws := match kws with
         | [] => acc
         | (f, q) :: kws' => go (CAnd acc (tr_cond q (FieldOf s f))) kws'
         end) (CInst s c) kws
  | POr p ps =>                                               (* 1252-1265 *)
      (fix go acc ps := match ps with
         | [] => acc
         | q :: ps' => go (COr acc (tr_cond q s)) ps'
         end) (tr_cond p s) ps
  end.

(** _translate_match_pattern_assignments, statement.py 1280-1317: MatchAs first
    assigns its own name, then those of the sub-pattern; class patterns recurse
    into the keyword patterns; everything else (or-patterns too) assigns nothing
    (line 1317). *)
Fixpoint tr_assigns (p : pattern) (s : place) : list (nat * place) :=
  match p with
  | PCap x => [(x, s)]
  | PAs p x => (x, s) :: tr_assigns p s
  | PClass _ kws => flat_map (fun kp => tr_assigns (snd kp) (FieldOf s (fst kp))) kws
  | _ => []
  end.

(** _translate_match_pattern_defines, statement.py 1319-1347. *)
Fixpoint tr_defines (p : pattern) : list nat :=
  match p with
  | PCap x => [x]
  | PAs p x => x :: tr_defines p
  | PClass _ kws => flat_map (fun kp => tr_defines (snd kp)) kws
  | _ => []
  end.

(** _collect_guard_aliases, statement.py 1131-1139. *)
Fixpoint guard_aliases (p : pattern) : list nat :=
  match p with
  | PCap x => [x]
  | PAs p x => x :: guard_aliases p
  | _ => []
  end.

(** The generated nested conditional; every branch holds the assignments, the
    definedness markers and the index of the case whose body follows. *)
Inductive mstmt : Type :=
| MSkip
| MIf (c : cond) (assigns : list (nat * place)) (defs : list nat) (body : nat) (els : mstmt).

(** translate_stmt_Match, statement.py 1101-1127: the loop runs over the reversed
    cases, so case [i] gets the translation of the later ones as else branch. *)
Fixpoint tr_cases (i : nat) (cs : list mcase) : mstmt :=
  match cs with
  | [] => MSkip
  | c :: cs' =>
      let pc := tr_cond (c_pat c) Subj in
      let full := match c_guard c with
                  | None => pc
                  | Some g => CAnd pc (CGuard g (guard_aliases (c_pat c)))
                  end in
      MIf full (tr_assigns (c_pat c) Subj) (tr_defines (c_pat c)) i (tr_cases (S i) cs')
  end.

(** Viper's meaning of the generated code.  [None]: the well-definedness check
    fails (unboxing a non-bool, field of a non-object). *)
Fixpoint place_val (h : heap) (v : val) (s : place) : option val :=
  match s with
  | Subj => Some v
  | FieldOf s f => match place_val h v s with Some (VRef r) => Some (h r f) | _ => None end
  end.

Fixpoint alias_all (l : locals) (xs : list nat) (v : val) : locals :=
  match xs with [] => l | x :: xs' => alias_all (upd_loc l x v) xs' v end.

Fixpoint cond_val (C : classes) (h : heap) (v : val) (l : locals) (c : cond) : option bool :=
  match c with
  | CTrue => Some true
  | CIsNull s => match place_val h v s with
                 | Some w => Some (match w with VNone => true | _ => false end) | None => None end
  | CIsBool s => match place_val h v s with
                 | Some w => Some (match w with VBool _ => true | _ => false end) | None => None end
  | CUnbox s => match place_val h v s with Some (VBool b) => Some b | _ => None end
  | CNot c => match cond_val C h v l c with Some b => Some (negb b) | None => None end
  | CEq s w => match place_val h v s with Some u => Some (eqv C u w) | None => None end
  | CInst s k => match place_val h v s with Some u => Some (isinst C u k) | None => None end
  | CAnd a b => match cond_val C h v l a with
                | Some true => cond_val C h v l b | r => r end
  | COr a b => match cond_val C h v l a with
               | Some false => cond_val C h v l b | r => r end
  | CGuard g xs => Some (g (alias_all l xs v))
  end.

Fixpoint run_assigns (h : heap) (v : val) (l : locals) (asg : list (nat * place)) : option locals :=
  match asg with
  | [] => Some l
  | (x, s) :: rest => match place_val h v s with
                      | Some w => run_assigns h v (upd_loc l x w) rest
                      | None => None
                      end
  end.

(** Result: chosen case, locals at the start of its body, names marked as
    defined. *)
Fixpoint run_match (C : classes) (h : heap) (v : val) (l : locals) (m : mstmt) :
  option (option nat * locals * list nat) :=
  match m with
  | MSkip => Some (None, l, [])
  | MIf c asg defs i els =>
      match cond_val C h v l c with
      | None => None
      | Some true => match run_assigns h v l asg with
                     | Some l' => Some (Some i, l', defs)
                     | None => None
                     end
      | Some false => run_match C h v l els
      end
  end.
