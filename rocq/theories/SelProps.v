(** Property C77: the option --select and the server mode. *)
From Coq Require Import List Arith Bool.
From Verif Require Import LensModel LensSpec SelModel SelSpec SelProofs.
Import ListNotations.

Definition nf : name := [102]. Definition ng : name := [103]. Definition nA : name := [65].
Definition nAg : name := nA ++ dot :: ng.

(** ** With a list of names, separated by commas, the bodies that are verified are exactly those
    that the list names, apart from those declared to be left out *)
Theorem C77_select : forall ns imported declared k f,
  ns <> [] -> join [comma_char] ns <> [] -> Forall (fun a => ~ In comma_char a) ns ->
  (contract_only (parse_select (Some (join [comma_char] ns))) imported declared k f = false <-> declared = false /\ named ns k f).
Proof. exact select_exact. Qed.
Print Assumptions C77_select.
Example C77_select_ex : join [comma_char] [nf; nAg] = [102; 44; 65; 46; 103] /\ Forall (fun a => ~ In comma_char a) [nf; nAg] /\
  contract_only (parse_select (Some (join [comma_char] [nf; nAg]))) false false (Some nA) ng = false /\
  contract_only (parse_select (Some (join [comma_char] [nf; nAg]))) false false None ng = true.
Proof.
  split; [reflexivity|]. split; [|split; reflexivity].
  constructor; [|constructor; [|constructor]]; intros H; repeat (destruct H as [H|H]; [discriminate|]); destruct H.
Qed.
(** Without the option, or with an empty text, all bodies of the file are verified that are not
    declared to be left out. *)
Theorem C77_all : forall o declared k f, truthy o = false -> contract_only (parse_select o) false declared k f = declared.
Proof. exact (fun o declared k f => match o with None => fun _ => orb_false_r declared | Some [] => fun _ => orb_false_r declared | Some (_ :: _) => fun H => False_ind _ (Bool.diff_true_false H) end). Qed.
Print Assumptions C77_all.
Example C77_all_ex : truthy (Some []) = false /\ contract_only (parse_select None) false false (Some nA) nf = false.
Proof. split; reflexivity. Qed.

(** Blanks after the commas are part of the names: the second name of "f, g" selects nothing,
    and a list of unknown names is not reported: no body is verified. *)
Theorem C77_blank_refuted : exists ns f, Forall identifier ns /\ In f ns /\
  contract_only (parse_select (Some (join [comma_char; 32] ns))) false false None f = true.
Proof.
  exists [nf; ng], ng. split; [|split; [right; left; reflexivity|reflexivity]].
  constructor; [|constructor; [|constructor]]; intros [H|[]]; discriminate.
Qed.
Print Assumptions C77_blank_refuted.

(** ** The server answers every request of a client, in their order, with what the command line
    prints for the file and the option --select of the client, or of the server if the client
    has none, as long as no call raises an exception that is not caught, and all is printed
    with the parameter ... *)
Theorem C77_served_partial : forall (V : option name -> list name -> call) srv (qs : list (name * option name)),
  let option_of (q : name * option name) := if truthy (snd q) then snd q else srv in
  (forall q, In q qs -> escapes (V (Some (fst q)) (parse_select (option_of q))) = false /\
    Forall (fun p => fst p = true) (parts (V (Some (fst q)) (parse_select (option_of q))))) ->
  serve (fun file selected => V file (effective srv selected)) (map (fun q => client (fst q) (snd q)) qs) =
  map (fun q => output (V (Some (fst q)) (parse_select (option_of q)))) qs.
Proof. exact served_as_cli. Qed.
Print Assumptions C77_served_partial.
Definition run1 (file : option name) (sel : list name) : call :=
  {| parts := [(true, [1]); (true, match file with Some f => f | None => [] end ++ concat sel)]; escapes := false |}.
Example C77_served_ex :
  serve (fun file selected => run1 file (effective (Some ng) selected)) (map (fun q => client (fst q) (snd q)) [([7], None); ([8], Some nf)]) =
  [[10; 1; 10; 7; 103]; [10; 1; 10; 8; 102]].
Proof. reflexivity. Qed.
(** ... an exception that is not caught leaves the request and all later ones without an
    answer ... *)
Theorem C77_served_exception_refuted : exists (V : option name -> list name -> call) qs q,
  In q qs /\ escapes (V (Some (fst q)) (parse_select (snd q))) = false /\
  serve (fun file selected => V file (effective None selected)) (map (fun q => client (fst q) (snd q)) qs) = [].
Proof.
  exists (fun file _ => {| parts := [(true, [1])]; escapes := match file with Some [7] => true | _ => false end |}), [([7], None); ([8], None)], ([8], None).
  split; [right; left; reflexivity|]. split; reflexivity.
Qed.
Print Assumptions C77_served_exception_refuted.
(** ... and the warning that nothing was selected is printed by the server only: the client
    does not see it. *)
Theorem C77_served_warning_refuted : exists (V : option name -> list name -> call) q,
  escapes (V (Some (fst q)) (parse_select (snd q))) = false /\
  serve (fun file selected => V file (effective None selected)) [client (fst q) (snd q)] <>
    [output (V (Some (fst q)) (parse_select (snd q)))].
Proof.
  exists (fun _ sel => {| parts := [(false, [9; 9]); (true, [1])]; escapes := false |}), ([7], Some nf).
  split; [reflexivity|discriminate].
Qed.
Print Assumptions C77_served_warning_refuted.
