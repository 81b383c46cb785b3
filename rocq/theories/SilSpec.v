(** Meaning of Viper expressions and, independently, the plain meaning of
    builder objects as their documentation states it. *)
From Coq Require Import List ZArith Bool.
From Verif Require Import SilModel.
Import ListNotations.
Open Scope Z_scope.

(** A state gives values to the opaque parts. [inhaling] selects the reading of
    inhale-exhale assertions. *)
Record state := { ints : nat -> Z; bools : nat -> bool; inhaling : bool }.

(** Viper's semantics of expressions. *)
Fixpoint vieval (s : state) (e : viexp) : Z :=
  match e with
  | VIntLit z => z
  | VIntAtom x => ints s x
  | VAdd a b => vieval s a + vieval s b
  | VSub a b => vieval s a - vieval s b
  | VICond c a b => if vbeval s c then vieval s a else vieval s b
  end
with vbeval (s : state) (e : vbexp) : bool :=
  match e with
  | VTrueLit => true
  | VFalseLit => false
  | VBoolAtom x => bools s x
  | VNot a => negb (vbeval s a)
  | VAnd a b => vbeval s a && vbeval s b
  | VOr a b => vbeval s a || vbeval s b
  | VImplies a b => negb (vbeval s a) || vbeval s b
  | VBCond c a b => if vbeval s c then vbeval s a else vbeval s b
  | VInhaleExhale i x => if inhaling s then vbeval s i else vbeval s x
  | VGt a b => vieval s b <? vieval s a
  | VGe a b => vieval s b <=? vieval s a
  | VLt a b => vieval s a <? vieval s b
  | VLe a b => vieval s a <=? vieval s b
  | VIEq a b => vieval s a =? vieval s b
  | VINe a b => negb (vieval s a =? vieval s b)
  | VBEq a b => Bool.eqb (vbeval s a) (vbeval s b)
  | VBNe a b => negb (Bool.eqb (vbeval s a) (vbeval s b))
  end.

(** What the builder classes are documented to mean, without any folding: a sum
    is the sum of all elements, a conjunction holds iff all conjuncts hold, ... *)
Fixpoint imean (s : state) (e : iexp) : Z :=
  match e with
  | PyNum z | RawInt z => z
  | PyInt x => ints s x
  | Add a b => imean s a + imean s b
  | Sub a b => imean s a - imean s b
  | Sum es => fold_right Z.add 0 (map (imean s) es)
  | Inc a => imean s a + 1
  | CondInc_ c v i => if bmean s c then imean s i else imean s v
  end
with bmean (s : state) (e : bexp) : bool :=
  match e with
  | TrueLit => true
  | FalseLit => false
  | Not a => negb (bmean s a)
  | PyBool x => bools s x
  | InhaleExhale i x => if inhaling s then bmean s i else bmean s x
  | BigAnd es => forallb (bmean s) es
  | BigOr es => existsb (bmean s) es
  | BoolCondExp c a b => if bmean s c then bmean s a else bmean s b
  | Implies c v => implb (bmean s c) (bmean s v)
  | GtCmp a b => imean s a >? imean s b
  | GeCmp a b => imean s a >=? imean s b
  | LtCmp a b => imean s a <? imean s b
  | LeCmp a b => imean s a <=? imean s b
  | IEqCmp a b => imean s a =? imean s b
  | INeCmp a b => negb (imean s a =? imean s b)
  | BEqCmp a b => Bool.eqb (bmean s a) (bmean s b)
  | BNeCmp a b => negb (Bool.eqb (bmean s a) (bmean s b))
  end.
