(** C71: the permission that Acc, Rd and Wildcard ask for is the fraction that the
    program states. *)
From Coq Require Import ZArith QArith.
From Verif Require Import PermSpec PermModel PermProofs.

(** Whatever Viper accepts has the value that the program states: in every state, for
    every amount, in every place. *)
Theorem C71_amount_partial :
  forall viper_int arp_flag p r q v,
    accepted viper_int arp_flag p q = Some v -> same (veval r v) (requested r p q).
Proof. intros vi fl p r q v. exact (request_meaning vi fl p r q v). Qed.
Print Assumptions C71_amount_partial.

(** The amounts that are documented to work are accepted, outside of pure functions. *)
Theorem C71_accepts_partial :
  forall viper_int p a, p <> InPure -> proper a -> exists v, accepted viper_int true p (RAccA a) = Some v.
Proof. exact amount_accepted. Qed.
Print Assumptions C71_accepts_partial.

(** Rd and Wildcard always work in pure functions, also without --arp. *)
Theorem C71_pure_read :
  forall viper_int arp_flag r q, q = RRd \/ q = RWildcard ->
    exists v, accepted viper_int arp_flag InPure q = Some v /\ same (veval r v) (Some (wild r)).
Proof. intros vi fl r q [-> | ->]; exists VWildcard; split; reflexivity. Qed.
Print Assumptions C71_pure_read.

(** Not every amount with a meaning is accepted: n / 2 for a local variable n, 1 * 1,
    f() + 1 / 2 and ARP() / 2 in a pure function are not, although each is a fraction. *)
Definition no_env : env :=
  {| var := fun _ => 1%Z; term := fun _ => 0%Z; wild := 1 # 2; arp := 1 # 4; arp_n := fun _ => 1 # 8;
     arp_of := fun _ => 1 # 4; arp_fresh := fun _ => 1 # 4; rd_pred := 1 # 16 |}.
Theorem C71_every_amount_refuted :
  ~ (forall viper_int p a, (forall r, exists x, denotes r p a = Some x) -> exists v, accepted viper_int true p (RAccA a) = Some v).
Proof.
  intros H. destruct (H (fun _ => false) InMethod (ABin ODiv (AName 0) (ANum 2))) as (v & E).
  - intros r. eexists. reflexivity.
  - discriminate.
Qed.
Print Assumptions C71_every_amount_refuted.
Theorem C71_int_product_refuted :
  (exists x, denotes no_env InMethod (ABin OMul (ANum 1) (ANum 1)) = Some x /\ (x == 1)%Q) /\
  accepted (fun _ => false) true InMethod (RAccA (ABin OMul (ANum 1) (ANum 1))) = None.
Proof. split; [eexists; split; reflexivity|reflexivity]. Qed.
Theorem C71_int_sum_refuted :
  (exists x, denotes no_env InMethod (ABin OAdd (ATerm 0) (ABin ODiv (ANum 1) (ANum 2))) = Some x /\ (x == 1 # 2)%Q) /\
  accepted (fun _ => false) true InMethod (RAccA (ABin OAdd (ATerm 0) (ABin ODiv (ANum 1) (ANum 2)))) = None.
Proof. split; [eexists; split; reflexivity|reflexivity]. Qed.
Theorem C71_half_read_in_pure_refuted :
  (exists x, denotes no_env InPure (ABin ODiv AArp (ANum 2)) = Some x /\ (x == 1 # 4)%Q) /\
  accepted (fun _ => false) true InPure (RAccA (ABin ODiv AArp (ANum 2))) = None.
Proof. split; [eexists; split; reflexivity|reflexivity]. Qed.

(** (1 - 2 / 3) * f() + ARP() / 4 *)
Definition ex : amount :=
  ABin OAdd (ABin OMul (ABin OSub (ANum 1) (ABin ODiv (ANum 2) (ANum 3))) (ATerm 0)) (ABin ODiv AArp (ANum 4)).
Example C71_ex_proper : proper ex.
Proof.
  apply p_add.
  - apply p_times'; [|discriminate|exact Logic.I]. apply p_sub; [apply p_one|]. apply p_frac; exact Logic.I.
  - apply p_div; [apply p_arp|discriminate|exact Logic.I].
Qed.
Example C71_ex_accepted : accepted (fun _ => false) true InMethod (RAccA ex) =
  Some (VPermAdd (VIntPermMul (VTerm 0) (VPermSub VFull (VFrac (VLit 2) (VLit 3)))) (VPermDiv VRd (VLit 4))).
Proof. reflexivity. Qed.
Example C71_ex_value : exists x, denotes {| var := var no_env; term := fun _ => 2%Z; wild := 0; arp := 1 # 4; arp_n := arp_n no_env;
  arp_of := arp_of no_env; arp_fresh := arp_fresh no_env; rd_pred := 0 |} InMethod ex = Some x /\ (x == 35 # 48)%Q.
Proof. eexists. split; reflexivity. Qed.
