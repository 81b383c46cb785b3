(** Property C78: changing the options of a running service. *)
From Coq Require Import List Arith Bool.
From Verif Require Import ConfModel ConfSpec ConfProofs.
Import ListNotations.

(** Resources for a size of at most 64 bits; larger ones raise. *)
Definition load1 (bv sif float : value) : option (value * value * value) :=
  match bv with Some b => if b <=? 64 then Some (bv, sif, float) else None | None => None end.
Definition s1 : state (value * value * value) :=
  {| conf := fun k => match k with Bv => Some 8 | Sif => Some 0 | Float => None | _ => Some 3 end; res := (Some 8, Some 0, None) |}.
Definition d1 : dict := fun k => match k with Bv => Some (Some 16) | Dbc => Some (Some 5) | Z3 => Some None | Jar => Some (Some 9) | _ => None end.

(** ** After a request the options that are reported are the requested ones, for keys that are
    missing or null the old ones *)
Theorem C78_effective : forall R (load : value -> value -> value -> option R) d s s' r b,
  configure load d s = (s', r, b) ->
  (forall k, conf s' k = wanted d (conf s) k) /\ forall k, k <> Jar -> current_options s' k = Some (wanted d (conf s) k).
Proof. exact @effective. Qed.
Print Assumptions C78_effective.
Example C78_effective_ex : exists s', configure load1 d1 s1 = (s', true, false) /\
  map (conf s') [Bv; Dbc; Z3; Jar; Sif] = [Some 16; Some 1; Some 3; Some 3; Some 0] /\ res s' = (Some 16, Some 0, None).
Proof. eexists. split; [reflexivity|]. split; reflexivity. Qed.

(** ** The resources are read again exactly if an option that they depend on changes *)
Theorem C78_reloads : forall R (load : value -> value -> value -> option R) d s s' r b,
  configure load d s = (s', r, b) ->
  (r = true <-> conf s' Sif <> conf s Sif \/ conf s' Bv <> conf s Bv \/ conf s' Float <> conf s Float).
Proof. exact @reloads. Qed.
Print Assumptions C78_reloads.
Example C78_reloads_ex : snd (fst (configure load1 d1 s1)) = true /\
  snd (fst (configure load1 (fun k => match k with Bv => Some (Some 8) | Z3 => Some (Some 2) | _ => None end) s1)) = false.
Proof. split; reflexivity. Qed.

(** ** Programs are translated with the resources for the options that are reported, after any
    sequence of requests without exceptions ... *)
Theorem C78_resources_partial : forall R (load : value -> value -> value -> option R) ds s s',
  after load ds s s' -> in_step load s -> in_step load s'.
Proof. exact @after_in_step. Qed.
Print Assumptions C78_resources_partial.
Example C78_resources_ex : in_step load1 s1 /\ exists s', after load1 [d1; d1] s1 s' /\ res s' = (Some 16, Some 0, None).
Proof.
  split; [reflexivity|]. eexists. split; [eapply A_cons; [reflexivity|]; eapply A_cons; [reflexivity|]; apply A_nil|]. reflexivity.
Qed.
(** ... but if reading them raises, the new options are reported, the old resources are used,
    and later requests, even the same one, do not repair this. *)
Theorem C78_resources_refuted : exists (load : value -> value -> value -> option (value * value * value)) s d s2 s3,
  in_step load s /\ configure load d s = (s2, true, true) /\ configure load d s2 = (s3, false, false) /\
  current_options s3 Bv <> current_options s Bv /\ res s3 = res s /\ ~ in_step load s3.
Proof.
  exists load1, s1, (fun k => match k with Bv => Some (Some 100) | _ => None end). eexists. eexists.
  split; [reflexivity|]. split; [reflexivity|]. split; [reflexivity|]. split; [discriminate|]. split; [reflexivity|]. discriminate.
Qed.
Print Assumptions C78_resources_refuted.

(** ** The same request twice changes nothing more *)
Theorem C78_twice : forall R (load : value -> value -> value -> option R) d s s1 r s2 r2 b2, in_step load s ->
  configure load d s = (s1, r, false) -> configure load d s1 = (s2, r2, b2) ->
  (forall k, conf s2 k = conf s1 k) /\ res s2 = res s1 /\ r2 = false /\ b2 = false.
Proof. exact @twice. Qed.
Print Assumptions C78_twice.
Example C78_twice_ex : snd (fst (configure load1 d1 (fst (fst (configure load1 d1 s1))))) = false.
Proof. reflexivity. Qed.

(** ** No request gets back to the default of the encoding of floats, which is None *)
Theorem C78_default_refuted : ~ (forall R (load : value -> value -> value -> option R) s, exists ds s',
  after load ds s s' /\ conf s' Float = None).
Proof.
  intros H. destruct (H nat (fun _ _ _ => Some 0) {| conf := fun _ => Some 1; res := 0 |}) as (ds & s' & A & E).
  assert (N : @conf nat {| conf := fun _ => Some 1; res := 0 |} Float <> None) by discriminate. revert N E.
  induction A as [s|d ds s r s2 s3 C _ IH]; [congruence|]. intros N. apply IH.
  rewrite (proj1 (effective _ _ _ _ _ _ C)). unfold wanted. destruct (d Float) as [[v|]|]; [discriminate|exact N|exact N].
Qed.
Print Assumptions C78_default_refuted.
