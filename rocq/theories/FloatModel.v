(* Model of the three float encodings of the built-in Viper library: float_real.sil
   (--float-encoding real), float_ieee32.sil (--float-encoding ieee32) and float.sil (default).
   All paths are relative to /repo/src/nagini_translation/resources.

   A Viper function without body becomes the proposition made of its ensures clauses, in the
   order of the source, over arguments and result; its requires clauses become a ..._pre.
   The preconditions that only fix the static class of an argument (issubtype(typeof(r),
   float())) are expressed by the argument type [pynum].  Viper's Perm is the type Qc of
   rational numbers, its Int is Z. *)

From Coq Require Import ZArith Bool QArith Qround Qcanon Floats.SpecFloat.
Open Scope Z_scope.

(* ------------------------------------------------------------------------------------ *)
(* float_real.sil *)

(* Content of a float reference in the real encoding.  float___is_nan__, float___is_inf__ and
   float___unbox__ (5-11, 35-43) are uninterpreted functions; the values below are the
   interpretation that __prim__perm___box__ (13-19), float___box_nan (21-26) and
   float___box_inf (28-33) build. *)
Inductive xval := XNan | XInf (negative : bool) | XFin (q : Qc).

(* References whose class is a subclass of float: floats, ints and bools (builtins.json:369,
   bool.sil:298-319).  The parameter is the content of a float object. *)
Inductive pynum (F : Type) := VFloat (x : F) | VInt (z : Z) | VBool (b : bool).
Arguments VFloat {F}. Arguments VInt {F}. Arguments VBool {F}.

(* int___unbox__ (bool.sil:303-308). *)
Definition int_of {F} (v : pynum F) : Z :=
  match v with VFloat _ => 0 | VInt z => z | VBool b => if b then 1 else 0 end.
(* issubtype(typeof(r), int()). *)
Definition is_int {F} (v : pynum F) : bool := match v with VFloat _ => false | _ => true end.

(* float___is_nan__ (35-38), float___is_inf__ (40-43) and float___unbox__ (5-11): for ints the
   ensures clauses fix the value. *)
Definition is_nan (r : pynum xval) : bool := match r with VFloat XNan => true | _ => false end.
Definition is_inf (r : pynum xval) (negative : bool) : bool :=
  match r with VFloat (XInf n) => Bool.eqb n negative | _ => false end.
Definition unbox (r : pynum xval) : Qc :=
  match r with VFloat (XFin q) => q | VFloat _ => Q2Qc 0 | _ => Q2Qc (inject_Z (int_of r)) end.

(* __prim__perm___box__ (13-19), float___box_nan (21-26), float___box_inf (28-33). *)
Definition box (q : Qc) : pynum xval := VFloat (XFin q).
Definition box_nan : pynum xval := VFloat XNan.
Definition box_inf (negative : bool) : pynum xval := VFloat (XInf negative).

Definition finite (r : pynum xval) : Prop :=
  is_nan r = false /\ is_inf r false = false /\ is_inf r true = false.
Definition zero : Qc := Q2Qc 0.

(* float___bool__ (50-56). *)
Definition bool_post (self : pynum xval) (result : bool) : Prop :=
  (finite self -> (result = true <-> unbox self <> zero)) /\
  (is_nan self = true \/ is_inf self false = true \/ is_inf self true = true -> result = true).

(* float___ge__ (58-71). *)
Definition ge_post (self other : pynum xval) (result : bool) : Prop :=
  (is_nan self = true \/ is_nan other = true -> result = false) /\
  (is_inf self false = true -> result = true) /\
  (is_inf self true = true -> result = is_inf other true) /\
  (is_inf other false = true -> result = is_inf self false) /\
  (is_inf other true = true -> result = true) /\
  (finite self /\ finite other -> (result = true <-> (unbox other <= unbox self)%Qc)).

(* float___gt__ (73-86). *)
Definition gt_post (self other : pynum xval) (result : bool) : Prop :=
  (is_nan self = true \/ is_nan other = true -> result = false) /\
  (is_inf self false = true -> result = negb (is_inf other false)) /\
  (is_inf self true = true -> result = false) /\
  (is_inf other false = true -> result = false) /\
  (is_inf other true = true -> result = negb (is_inf self true)) /\
  (finite self /\ finite other -> (result = true <-> (unbox other < unbox self)%Qc)).

(* float___le__ (88-101). *)
Definition le_post (self other : pynum xval) (result : bool) : Prop :=
  (is_nan self = true \/ is_nan other = true -> result = false) /\
  (is_inf self false = true -> result = is_inf other false) /\
  (is_inf self true = true -> result = true) /\
  (is_inf other false = true -> result = true) /\
  (is_inf other true = true -> result = is_inf self true) /\
  (finite self /\ finite other -> (result = true <-> (unbox self <= unbox other)%Qc)).

(* float___lt__ (103-116). *)
Definition lt_post (self other : pynum xval) (result : bool) : Prop :=
  (is_nan self = true \/ is_nan other = true -> result = false) /\
  (is_inf self false = true -> result = false) /\
  (is_inf self true = true -> result = negb (is_inf other true)) /\
  (is_inf other false = true -> result = negb (is_inf self false)) /\
  (is_inf other true = true -> result = false) /\
  (finite self /\ finite other -> (result = true <-> (unbox self < unbox other)%Qc)).

(* float___eq__ (118-135). *)
Definition eq_post (self other : pynum xval) (result : bool) : Prop :=
  (is_nan self = true \/ is_nan other = true -> result = false) /\
  ((is_inf self false = true /\ is_inf other false = true) \/
   (is_inf self true = true /\ is_inf other true = true) -> result = true) /\
  ((is_inf self false = true /\ is_inf other false = false) \/
   (is_inf self true = true /\ is_inf other true = false) \/
   (is_inf other false = true /\ is_inf self false = false) \/
   (is_inf other true = true /\ is_inf self true = false) -> result = false) /\
  (finite self /\ finite other -> (result = true <-> unbox self = unbox other)).

(* float___add__ (137-156) and float___radd__ (158-177). *)
Definition add_post (self other result : pynum xval) : Prop :=
  (is_nan self = true \/ is_nan other = true -> result = box_nan) /\
  ((is_inf self false = true /\ is_inf other true = true) \/
   (is_inf self true = true /\ is_inf other false = true) -> result = box_nan) /\
  ((is_inf self false = true /\ is_inf other true = false /\ is_nan other = false) \/
   (is_inf other false = true /\ is_inf self true = false /\ is_nan self = false) ->
   result = box_inf false) /\
  ((is_inf self true = true /\ is_inf other false = false /\ is_nan other = false) \/
   (is_inf other true = true /\ is_inf self false = false /\ is_nan self = false) ->
   result = box_inf true) /\
  (finite self /\ finite other -> result = box (unbox self + unbox other)%Qc).
Definition radd_post (self other result : pynum xval) : Prop :=
  (is_nan self = true \/ is_nan other = true -> result = box_nan) /\
  ((is_inf self false = true /\ is_inf other true = true) \/
   (is_inf self true = true /\ is_inf other false = true) -> result = box_nan) /\
  ((is_inf self false = true /\ is_inf other true = false /\ is_nan other = false) \/
   (is_inf other false = true /\ is_inf self true = false /\ is_nan self = false) ->
   result = box_inf false) /\
  ((is_inf self true = true /\ is_inf other false = false /\ is_nan other = false) \/
   (is_inf other true = true /\ is_inf self false = false /\ is_nan self = false) ->
   result = box_inf true) /\
  (finite self /\ finite other -> result = box (unbox other + unbox self)%Qc).

(* float___sub__ (179-198) and float___rsub__ (200-219). *)
Definition sub_post (self other result : pynum xval) : Prop :=
  (is_nan self = true \/ is_nan other = true -> result = box_nan) /\
  ((is_inf self false = true /\ is_inf other false = true) \/
   (is_inf self true = true /\ is_inf other true = true) -> result = box_nan) /\
  ((is_inf self false = true /\ is_inf other false = false /\ is_nan other = false) \/
   (is_inf self false = false /\ is_inf self true = false /\ is_nan self = false /\
    is_inf other true = true) -> result = box_inf false) /\
  ((is_inf self true = true /\ is_inf other true = false /\ is_nan other = false) \/
   (is_inf self false = false /\ is_inf self true = false /\ is_nan self = false /\
    is_inf other false = true) -> result = box_inf true) /\
  (finite self /\ finite other -> result = box (unbox self - unbox other)%Qc).
Definition rsub_post (self other result : pynum xval) : Prop :=
  (is_nan other = true \/ is_nan self = true -> result = box_nan) /\
  ((is_inf other false = true /\ is_inf self false = true) \/
   (is_inf other true = true /\ is_inf self true = true) -> result = box_nan) /\
  ((is_inf other false = true /\ is_inf self false = false /\ is_nan self = false) \/
   (is_inf other false = false /\ is_inf other true = false /\ is_nan other = false /\
    is_inf self true = true) -> result = box_inf false) /\
  ((is_inf other true = true /\ is_inf self true = false /\ is_nan self = false) \/
   (is_inf other false = false /\ is_inf other true = false /\ is_nan other = false /\
    is_inf self false = true) -> result = box_inf true) /\
  (finite other /\ finite self -> result = box (unbox other - unbox self)%Qc).

(* float___mul__ (221-273) and float___rmul__ (275-327). *)
Definition mul_post (self other result : pynum xval) : Prop :=
  (is_nan self = true \/ is_nan other = true -> result = box_nan) /\
  (finite self /\ unbox self = zero /\ (is_inf other false = true \/ is_inf other true = true) ->
   result = box_nan) /\
  (finite other /\ unbox other = zero /\ (is_inf self false = true \/ is_inf self true = true) ->
   result = box_nan) /\
  ((is_inf self false = true /\ is_inf other false = true) \/
   (is_inf self true = true /\ is_inf other true = true) -> result = box_inf false) /\
  (finite self /\ (((zero < unbox self)%Qc /\ is_inf other false = true) \/
                   ((unbox self < zero)%Qc /\ is_inf other true = true)) ->
   result = box_inf false) /\
  (finite other /\ ((is_inf self false = true /\ (zero < unbox other)%Qc) \/
                    (is_inf self true = true /\ (unbox other < zero)%Qc)) ->
   result = box_inf false) /\
  ((is_inf self false = true /\ is_inf other true = true) \/
   (is_inf self true = true /\ is_inf other false = true) -> result = box_inf true) /\
  (finite self /\ (((zero < unbox self)%Qc /\ is_inf other true = true) \/
                   ((unbox self < zero)%Qc /\ is_inf other false = true)) ->
   result = box_inf true) /\
  (finite other /\ (((zero < unbox other)%Qc /\ is_inf self true = true) \/
                    ((unbox other < zero)%Qc /\ is_inf self false = true)) ->
   result = box_inf true) /\
  (finite other /\ finite self -> result = box (unbox self * unbox other)%Qc).
Definition rmul_post (self other result : pynum xval) : Prop :=
  (is_nan self = true \/ is_nan other = true -> result = box_nan) /\
  (finite other /\ unbox other = zero /\ (is_inf self false = true \/ is_inf self true = true) ->
   result = box_nan) /\
  (finite self /\ unbox self = zero /\ (is_inf other false = true \/ is_inf other true = true) ->
   result = box_nan) /\
  ((is_inf other false = true /\ is_inf self false = true) \/
   (is_inf other true = true /\ is_inf self true = true) -> result = box_inf false) /\
  (finite other /\ (((zero < unbox other)%Qc /\ is_inf self false = true) \/
                    ((unbox other < zero)%Qc /\ is_inf self true = true)) ->
   result = box_inf false) /\
  (finite self /\ ((is_inf other false = true /\ (zero < unbox self)%Qc) \/
                   (is_inf other true = true /\ (unbox self < zero)%Qc)) ->
   result = box_inf false) /\
  ((is_inf other false = true /\ is_inf self true = true) \/
   (is_inf other true = true /\ is_inf self false = true) -> result = box_inf true) /\
  (finite other /\ (((zero < unbox other)%Qc /\ is_inf self true = true) \/
                    ((unbox other < zero)%Qc /\ is_inf self false = true)) ->
   result = box_inf true) /\
  (finite self /\ (((zero < unbox self)%Qc /\ is_inf other true = true) \/
                   ((unbox self < zero)%Qc /\ is_inf other false = true)) ->
   result = box_inf true) /\
  (finite self /\ finite other -> result = box (unbox other * unbox self)%Qc).

(* float___truediv__ (329-363) and float___rtruediv__ (365-399). *)
Definition truediv_pre (self other : pynum xval) : Prop := finite other -> unbox other <> zero.
Definition truediv_post (self other result : pynum xval) : Prop :=
  (is_nan self = true \/ is_nan other = true -> result = box_nan) /\
  ((is_inf self false = true /\ is_inf other false = true) \/
   (is_inf self false = true /\ is_inf other true = true) \/
   (is_inf self true = true /\ is_inf other false = true) \/
   (is_inf self true = true /\ is_inf other true = true) -> result = box_nan) /\
  ((is_inf other false = true \/ is_inf other true = true) /\ finite self -> result = box zero) /\
  (finite other /\ (((zero < unbox other)%Qc /\ is_inf self false = true) \/
                    ((unbox other < zero)%Qc /\ is_inf self true = true)) ->
   result = box_inf false) /\
  (finite other /\ (((zero < unbox other)%Qc /\ is_inf self true = true) \/
                    ((unbox other < zero)%Qc /\ is_inf self false = true)) ->
   result = box_inf true) /\
  (finite self /\ finite other -> result = box (unbox self / unbox other)%Qc).
Definition rtruediv_pre (self other : pynum xval) : Prop := finite self -> unbox self <> zero.
Definition rtruediv_post (self other result : pynum xval) : Prop :=
  (is_nan self = true \/ is_nan other = true -> result = box_nan) /\
  ((is_inf other false = true /\ is_inf self false = true) \/
   (is_inf other false = true /\ is_inf self true = true) \/
   (is_inf other true = true /\ is_inf self false = true) \/
   (is_inf other true = true /\ is_inf self true = true) -> result = box_nan) /\
  ((is_inf self false = true \/ is_inf self true = true) /\ finite other -> result = box zero) /\
  (finite self /\ (((zero < unbox self)%Qc /\ is_inf other false = true) \/
                   ((unbox self < zero)%Qc /\ is_inf other true = true)) ->
   result = box_inf false) /\
  (finite self /\ (((zero < unbox self)%Qc /\ is_inf other true = true) \/
                   ((unbox self < zero)%Qc /\ is_inf other false = true)) ->
   result = box_inf true) /\
  (finite other /\ finite self -> result = box (unbox other / unbox self)%Qc).

(* float___neg__ (406-413). *)
Definition neg_post (self result : pynum xval) : Prop :=
  (finite self -> result = box (- unbox self)%Qc) /\
  (is_nan self = true -> result = box_nan) /\
  (is_inf self false = true -> result = box_inf true) /\
  (is_inf self true = true -> result = box_inf false).

(* float___int__ (415-421) with ____to_int (423-425), which is SMT-LIB's to_int: the largest
   integer that is not larger. *)
Definition int_pre (self : pynum xval) : Prop := finite self.
Definition real_int (self : pynum xval) : Z := Qfloor (unbox self).

(* translate_float_literal (translators/expression.py:515-530): the literal is a Python float,
   here in the form m * 2^e of the standard library's SpecFloat; as_integer_ratio gives its
   exact value. *)
Definition pow2 (e : Z) : Q := if 0 <=? e then inject_Z (2 ^ e) else 1 # Z.to_pos (2 ^ (- e)).
Definition exact (s : bool) (m : positive) (e : Z) : Qc :=
  Q2Qc (inject_Z (if s then Zneg m else Zpos m) * pow2 e).
Definition real_literal (lit : spec_float) : pynum xval :=
  match lit with
  | S754_nan => box_nan
  | S754_infinity s => box_inf s
  | S754_zero _ => box zero
  | S754_finite s m e => box (exact s m e)
  end.

(* ------------------------------------------------------------------------------------ *)
(* float_ieee32.sil.  The domain ___float32 (136-153) is interpreted as SMT-LIB's sort
   (_ FloatingPoint 8 24): the valid numbers of SpecFloat with 24 digits and maximal exponent
   128.  Viper's == on the domain is SMT-LIB's =, that is equality of the representations. *)
Definition prec32 : Z := 24.
Definition emax32 : Z := 128.
Definition f32 : Type := spec_float.

(* to_fp from a bit vector of 32 bits (137): sign, eight bits of exponent, 23 bits. *)
Definition decode32 (i : Z) : f32 :=
  let s := Z.odd (i / 2 ^ 31) in
  let ex := (i / 2 ^ 23) mod 2 ^ 8 in
  let fr := i mod 2 ^ 23 in
  if ex =? 255 then (if fr =? 0 then S754_infinity s else S754_nan)
  else if ex =? 0 then
    match fr with Zpos m => S754_finite s m (-149) | _ => S754_zero s end
  else match fr + 2 ^ 23 with Zpos m => S754_finite s m (ex - 150) | _ => S754_nan end.
(* toBV32 (133): the integer modulo 2^32. *)
Definition to_bv32 (i : Z) : Z := i mod 2 ^ 32.

(* ___float32_from_real with a whole number (138): round to nearest even. *)
Definition from_int32 (z : Z) : f32 := binary_normalize prec32 emax32 z 0 false.

(* ___float32_zero (155-159). *)
Definition zero32 : f32 := decode32 (to_bv32 0).

(* float___unbox__ (5-8); float___create__ (1-3) of an integer. *)
Definition unbox32 (r : pynum f32) : f32 :=
  match r with VFloat x => x | _ => from_int32 (int_of r) end.
Definition create32 (i : Z) : pynum f32 := VFloat (decode32 (to_bv32 i)).

(* float___bool__ (15-19), __ge__ (26-30), __gt__ (32-36), __le__ (38-42), __lt__ (44-48),
   __eq__ (50-54). *)
Definition bool32 (self : pynum f32) : Prop := unbox32 self <> zero32.
Definition ge32 (self other : pynum f32) : bool := SFleb (unbox32 other) (unbox32 self).
Definition gt32 (self other : pynum f32) : bool := SFltb (unbox32 other) (unbox32 self).
Definition le32 (self other : pynum f32) : bool := ge32 other self.
Definition lt32 (self other : pynum f32) : bool := gt32 other self.
Definition eq32 (self other : pynum f32) : bool := SFeqb (unbox32 self) (unbox32 other).

(* float___add__ (56-61), __radd__ (63-68), __sub__ (70-75), __rsub__ (77-82), __mul__ (84-89),
   __rmul__ (91-96), __truediv__ (98-104), __rtruediv__ (118-124), __neg__ (112-116). *)
Definition add32 (self other : pynum f32) : pynum f32 :=
  VFloat (SFadd prec32 emax32 (unbox32 self) (unbox32 other)).
Definition radd32 (self other : pynum f32) : pynum f32 :=
  VFloat (SFadd prec32 emax32 (unbox32 other) (unbox32 self)).
Definition sub32 (self other : pynum f32) : pynum f32 :=
  VFloat (SFsub prec32 emax32 (unbox32 self) (unbox32 other)).
Definition rsub32 (self other : pynum f32) : pynum f32 :=
  VFloat (SFsub prec32 emax32 (unbox32 other) (unbox32 self)).
Definition mul32 (self other : pynum f32) : pynum f32 :=
  VFloat (SFmul prec32 emax32 (unbox32 self) (unbox32 other)).
Definition rmul32 (self other : pynum f32) : pynum f32 :=
  VFloat (SFmul prec32 emax32 (unbox32 other) (unbox32 self)).
Definition truediv32_pre (self other : pynum f32) : Prop := unbox32 other <> zero32.
Definition truediv32 (self other : pynum f32) : pynum f32 :=
  VFloat (SFdiv prec32 emax32 (unbox32 self) (unbox32 other)).
Definition rtruediv32_pre (self other : pynum f32) : Prop := unbox32 self <> zero32.
Definition rtruediv32 (self other : pynum f32) : pynum f32 :=
  VFloat (SFdiv prec32 emax32 (unbox32 other) (unbox32 self)).
Definition neg32 (self : pynum f32) : pynum f32 := VFloat (SFopp (unbox32 self)).

(* float___int__ (126-130) with ___float32_to_int (161-164): to_int of the exact value; no
   precondition.  fp.to_real of an infinity or a nan is some real number: None. *)
Definition int32 (self : pynum f32) : option Z :=
  match unbox32 self with
  | S754_zero _ => Some 0
  | S754_finite s m e => Some (Qfloor (exact s m e))
  | _ => None
  end.

(* int___eq__ (bool.sil:321-327) in this encoding.  object___eq__ of two ints is the same
   comparison (clause three) and left out. *)
Definition int_eq_post32 (self other : pynum f32) (result : bool) : Prop :=
  (is_int other = true -> (result = true <-> int_of self = int_of other)) /\
  (result = eq32 self other).
(* The same in the real encoding; other is an object of class int or float. *)
Definition int_eq_post (self other : pynum xval) (result : bool) : Prop :=
  (is_int other = true -> (result = true <-> int_of self = int_of other)) /\
  (eq_post self other result).
(* int___ge__ and int___lt__ (bool.sil:339-347, 369-377) in the real encoding. *)
Definition int_ge_post (self other : pynum xval) (result : bool) : Prop :=
  if is_int other then result = (int_of other <=? int_of self) else ge_post self other result.
Definition int_lt_post (self other : pynum xval) (result : bool) : Prop :=
  if is_int other then result = (int_of self <? int_of other) else lt_post self other result.

(* translate_float_literal (translators/expression.py:531-538): struct.pack('!f', lit) rounds
   the double to a single and raises OverflowError (None) if a finite number becomes infinite;
   the four bytes are read as an integer. *)
Definition encode32 (x : f32) : Z :=
  let sign (s : bool) := if s then 2 ^ 31 else 0 in
  match x with
  | S754_zero s => sign s
  | S754_infinity s => sign s + 255 * 2 ^ 23
  | S754_nan => 255 * 2 ^ 23 + 2 ^ 22
  | S754_finite s m e =>
      if Zpos m <? 2 ^ 23 then sign s + Zpos m
      else sign s + (e + 150) * 2 ^ 23 + (Zpos m - 2 ^ 23)
  end.
Definition to_single (lit : spec_float) : option f32 :=
  match lit with
  | S754_finite s m e =>
      match binary_round prec32 emax32 s m e with
      | S754_infinity _ => None
      | x => Some x
      end
  | x => Some x
  end.
Definition literal32 (lit : spec_float) : option (pynum f32) :=
  match to_single lit with Some x => Some (create32 (encode32 x)) | None => None end.

(* ------------------------------------------------------------------------------------ *)
(* float.sil: the default encoding.  Float objects are opaque; only facts about ints. *)
(* Float objects are numbered. *)
Definition opaque := pynum nat.
(* float___bool__ (6-10), __ge__ (17-22), __gt__ (24-29), __le__ (31-36), __lt__ (38-43),
   __eq__ (45-50). *)
Definition bool_post_d (self : opaque) (result : bool) : Prop :=
  is_int self = true -> (result = negb (int_of self =? 0)).
Definition compare_post_d (cmp : Z -> Z -> bool) (self other : opaque) (result : bool) : Prop :=
  is_int self = true /\ is_int other = true -> result = cmp (int_of self) (int_of other).
(* float___add__ (52-58), __sub__ (68-74), __mul__ (84-90): op is the operation on ints. *)
Definition arith_post_d (op : Z -> Z -> Z) (self other result : opaque) : Prop :=
  is_int self = true /\ is_int other = true -> result = VInt (op (int_of self) (int_of other)).
(* float___neg__ (116-120). *)
Definition neg_post_d (self result : opaque) : Prop :=
  is_int self = true -> result = VInt (- int_of self).
