(** Permission amounts in Acc: what users write and which fraction it denotes.
    This file knows nothing about the translation. *)
From Coq Require Import ZArith QArith.

Inductive binop := OAdd | OSub | OMul | ODiv | OMod.

(** The second argument of Acc. Variables, attributes and calls of pure functions are
    integers; ARP() and its relatives are fractions that the ARP extension chooses. *)
Inductive amount :=
| ANum (z : Z)
| AName (x : nat)
| ATerm (t : nat)                       (* an attribute, or a call of a pure function *)
| ABin (o : binop) (a b : amount)
| ANeg (a : amount)
| AArp                                  (* ARP() *)
| AArpN (a : amount)                    (* ARP(n) *)
| AGetArp (t : nat)                     (* getARP(t) *)
| ARdPred.                              (* RD_PRED *)

(** Where the permission is written: in a pure function, in the contract of a method, or in
    the contract of a method that a thread is started with, while starting or joining it. *)
Inductive place := InPure | InMethod | Starting (t : nat) | Joining (t : nat).
(** The ways of asking for permission: Acc(e), Acc(e, a), Rd(e), Wildcard(e). *)
Inductive request := RAcc | RAccA (a : amount) | RRd | RWildcard.

(** The values of variables, attributes and calls, and of the read permissions. *)
Record env := {
  var : nat -> Z;
  term : nat -> Z;
  wild : Q;               (* the amount that Viper picks for a wildcard *)
  arp : Q;
  arp_n : Z -> Q;
  arp_of : nat -> Q;
  arp_fresh : nat -> Q;
  rd_pred : Q
}.

(** Arithmetic over the rational numbers; None: division by zero, or not a number that
    the operator can be applied to. *)
Definition is_int (q : Q) : option Z := if Pos.eqb (Qden (Qred q)) 1 then Some (Qnum (Qred q)) else None.
Definition read_amount (r : env) (p : place) : Q :=
  match p with
  | InPure => wild r
  | InMethod => arp r
  | Starting t => arp_fresh r t
  | Joining t => arp_of r t
  end.
Fixpoint denotes (r : env) (p : place) (a : amount) : option Q :=
  match a with
  | ANum z => Some (inject_Z z)
  | AName x => Some (inject_Z (var r x))
  | ATerm t => Some (inject_Z (term r t))
  | ABin o a b =>
      match denotes r p a, denotes r p b with
      | Some x, Some y =>
          match o with
          | OAdd => Some (x + y)%Q
          | OSub => Some (x - y)%Q
          | OMul => Some (x * y)%Q
          | ODiv => if Qeq_bool y 0 then None else Some (x / y)%Q
          | OMod => None
          end
      | _, _ => None
      end
  | ANeg a => match denotes r p a with Some x => Some (- x)%Q | None => None end
  | AArp => Some (read_amount r p)
  | AArpN a => match denotes r p a with Some q => match is_int q with Some z => Some (arp_n r z) | None => None end | None => None end
  | AGetArp t => Some (arp_of r t)
  | ARdPred => Some (rd_pred r)
  end.

Definition requested (r : env) (p : place) (q : request) : option Q :=
  match q with
  | RAcc => Some 1%Q
  | RAccA a => denotes r p a
  | RRd => Some (read_amount r p)
  | RWildcard => Some (wild r)
  end.

(** The same value, or both undefined. *)
Definition same (p q : option Q) : Prop :=
  match p, q with Some x, Some y => (x == y)%Q | None, None => True | _, _ => False end.

(** Integers: the numerators that are documented to work, and the denominators. *)
Fixpoint numerator (a : amount) : Prop :=
  match a with
  | ANum _ | ATerm _ => True
  | ABin OMul a b => numerator a /\ numerator b
  | _ => False
  end.
Fixpoint integer (a : amount) : Prop :=
  match a with
  | ANum _ | AName _ | ATerm _ => True
  | ABin (OAdd | OSub | OMul) a b => integer a /\ integer b
  | ANeg a => integer a
  | _ => False
  end.
(** Amounts that are documented to work: 1, fractions, sums and differences of amounts,
    multiples, products and fractions of amounts, and read permissions. *)
Inductive proper : amount -> Prop :=
| p_one : proper (ANum 1)
| p_frac a b : numerator a -> integer b -> proper (ABin ODiv a b)
| p_div a b : proper a -> a <> ANum 1 -> integer b -> proper (ABin ODiv a b)
| p_add a b : proper a -> proper b -> proper (ABin OAdd a b)
| p_sub a b : proper a -> proper b -> proper (ABin OSub a b)
| p_times a b : numerator a -> proper b -> b <> ANum 1 -> proper (ABin OMul a b)
| p_times' a b : proper a -> a <> ANum 1 -> numerator b -> proper (ABin OMul a b)
| p_mul a b : proper a -> a <> ANum 1 -> proper b -> b <> ANum 1 -> proper (ABin OMul a b)
| p_arp : proper AArp
| p_arp_n a : integer a -> proper (AArpN a)
| p_get t : proper (AGetArp t)
| p_rd : proper ARdPred.
