(** Proofs about the option --select and the server mode. *)
From Coq Require Import List Arith Bool Lia.
From Verif Require Import LensModel LensSpec LensProofs SelModel SelSpec.
Import ListNotations.

Lemma split_one a : ~ In comma a -> split a = [a].
Proof.
  induction a as [|h a IH]; intros H; [reflexivity|]. cbn. destruct (Nat.eqb_spec h comma) as [->|N].
  - exfalso. apply H. left. reflexivity.
  - rewrite IH; [reflexivity|]. intros X. apply H. right. exact X.
Qed.
Lemma split_app a s : ~ In comma a -> split (a ++ comma :: s) = a :: split s.
Proof.
  induction a as [|h a IH]; intros H; [reflexivity|]. cbn [app split]. destruct (Nat.eqb_spec h comma) as [->|N].
  - exfalso. apply H. left. reflexivity.
  - rewrite IH; [reflexivity|]. intros X. apply H. right. exact X.
Qed.
Lemma split_join ns : ns <> [] -> Forall (fun a => ~ In comma a) ns -> split (join [comma] ns) = ns.
Proof.
  induction ns as [|a ns IH]; intros N F; [congruence|]. pose proof (Forall_inv F) as A. pose proof (Forall_inv_tail F) as B. cbn in A.
  destruct ns as [|b ns]; [exact (split_one a A)|]. change (join [comma] (a :: b :: ns)) with (a ++ comma :: join [comma] (b :: ns)).
  rewrite split_app by exact A. f_equal. apply IH; [discriminate|exact B].
Qed.
Lemma mem_in a l : mem a l = true <-> In a l.
Proof.
  unfold mem. rewrite existsb_exists. split.
  - intros (b & H & E). apply name_eqb_spec in E. now subst.
  - intros H. exists a. split; [exact H|]. now apply name_eqb_spec.
Qed.
Lemma selected_named ns k f : is_selected ns k f = true <-> named ns k f.
Proof.
  unfold is_selected, named. rewrite orb_true_iff, mem_in. split; intros [H|H].
  - destruct k as [c|]; [|discriminate]. right. exists c. split; [reflexivity|]. destruct (mem c ns) eqn:M.
    + left. now apply mem_in.
    + right. now apply mem_in in H.
  - left. exact H.
  - right. exact H.
  - destruct H as (c & -> & H). left. destruct (mem c ns) eqn:M; [reflexivity|]. destruct H as [H|H].
    + apply mem_in in H. congruence.
    + now apply mem_in.
Qed.
Lemma select_list ns : ns <> [] -> join [comma] ns <> [] -> Forall (fun a => ~ In comma a) ns ->
  parse_select (Some (join [comma] ns)) = ns.
Proof.
  intros N J F. unfold parse_select. replace (truthy (Some (join [comma] ns))) with true by (destruct (join [comma] ns); [congruence|reflexivity]).
  now apply split_join.
Qed.
Lemma select_exact ns imported declared k f : ns <> [] -> join [comma] ns <> [] -> Forall (fun a => ~ In comma a) ns ->
  (contract_only (parse_select (Some (join [comma] ns))) imported declared k f = false <-> declared = false /\ named ns k f).
Proof.
  intros N J F. rewrite select_list by assumption. unfold contract_only. destruct ns as [|a ns]; [congruence|].
  rewrite andb_false_r. cbn [orb negb andb]. rewrite orb_false_iff, negb_false_iff, selected_named. reflexivity.
Qed.
Lemma client_same srv file sel : fst (parse_client_request (client file sel)) = Some file /\
  effective srv (snd (parse_client_request (client file sel))) = (if truthy sel then parse_select sel else parse_select srv).
Proof. split; [reflexivity|]. destruct sel as [[|ch s]|]; reflexivity. Qed.

Lemma response_output c : Forall (fun p => fst p = true) (parts c) -> response c = output c.
Proof.
  unfold response, output. intros F. change (concat (map (fun p : bool * name => line_end :: snd p) (parts c)))
    with ([] ++ concat (map (fun p : bool * name => line_end :: snd p) (parts c))). generalize (@nil nat) as acc.
  induction (parts c) as [|(b & t) l IH]; intros acc; cbn; [symmetry; apply app_nil_r|].
  pose proof (Forall_inv F) as B. cbn in B. subst b. rewrite IH by exact (Forall_inv_tail F). now rewrite <- app_assoc.
Qed.
Definition answer (run : option name -> option (list name) -> call) (r : request) : call :=
  run (fst (parse_client_request r)) (snd (parse_client_request r)).
Lemma served run rs : (forall r, In r rs -> escapes (answer run r) = false /\ Forall (fun p => fst p = true) (parts (answer run r))) ->
  serve run rs = map (fun r => output (answer run r)) rs.
Proof.
  induction rs as [|r rs IH]; intros H; [reflexivity|]. cbn [serve map]. destruct (H r (or_introl eq_refl)) as [E P].
  unfold answer in *. destruct (parse_client_request r) as [file sel]. cbn [fst snd] in *. rewrite E, response_output by exact P.
  f_equal. apply IH. intros x Hx. apply H. right. exact Hx.
Qed.
Lemma served_as_cli (V : option name -> list name -> call) srv (qs : list (name * option name)) :
  let option_of (q : name * option name) := if truthy (snd q) then snd q else srv in
  (forall q, In q qs -> escapes (V (Some (fst q)) (parse_select (option_of q))) = false /\
    Forall (fun p => fst p = true) (parts (V (Some (fst q)) (parse_select (option_of q))))) ->
  serve (fun file selected => V file (effective srv selected)) (map (fun q => client (fst q) (snd q)) qs) =
  map (fun q => output (V (Some (fst q)) (parse_select (option_of q)))) qs.
Proof.
  intros option_of H.
  assert (E : forall q, answer (fun file selected => V file (effective srv selected)) (client (fst q) (snd q)) = V (Some (fst q)) (parse_select (option_of q))).
  { intros (f & o). unfold answer, option_of. destruct (client_same srv f o) as [A B]. cbn [fst snd]. rewrite A, B. destruct (truthy o); reflexivity. }
  rewrite served, map_map.
  - apply map_ext. intros q. now rewrite E.
  - intros r Hr. apply in_map_iff in Hr as (q & <- & Hq). rewrite E. exact (H q Hq).
Qed.
