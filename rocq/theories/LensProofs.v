(** Proofs about code lenses and hovers over names of functions. *)
From Coq Require Import List Arith ZArith Bool Lia.
From Verif Require Import LensModel LensSpec.
Import ListNotations.

Lemma node_nested (P : node -> Prop) :
  (forall f l cl b, Forall P b -> P (Fun f l cl b)) -> (forall c b, Forall P b -> P (Cls c b)) ->
  (forall b, Forall P b -> P (Other b)) -> forall x, P x.
Proof.
  intros A B C. fix IH 1. intros [f l cl b|c b|b]; [apply A|apply B|apply C];
    (induction b as [|z b I]; constructor; [apply IH|exact I]).
Qed.

Lemma flat_nil {A B} (f : A -> list B) l : Forall (fun x => f x = []) l -> flat_map f l = [].
Proof. induction 1 as [|x l E _ I]; cbn; [reflexivity|]. now rewrite E, I. Qed.
Lemma fun_visit k x : forall c, not_nested c true x = true -> visit k x = [].
Proof.
  revert k. induction x as [f l cl b IH|c0 b IH|b IH] using node_nested; intros k c H; cbn in *; try discriminate.
  apply flat_nil. rewrite forallb_forall in H. rewrite Forall_forall in *. intros z Hz. exact (IH z Hz k c (H z Hz)).
Qed.
Lemma fun_walk p x c : not_nested c true x = true -> walk p x = [].
Proof. destruct x; cbn; try discriminate. reflexivity. Qed.
Lemma defs_visit k x : no_defs x = true -> visit k x = [].
Proof.
  revert k. induction x as [f l cl b IH|c0 b IH|b IH] using node_nested; intros k H; cbn in *; try discriminate.
  apply flat_nil. rewrite forallb_forall in H. rewrite Forall_forall in *. intros z Hz. exact (IH z Hz k (H z Hz)).
Qed.
Lemma body_visit k b c : forallb (not_nested c true) b = true -> flat_map (visit k) b = [].
Proof. intros H. apply flat_nil, Forall_forall. rewrite forallb_forall in H. intros z Hz. exact (fun_visit k z c (H z Hz)). Qed.
Lemma body_walk p b c : forallb (not_nested c true) b = true -> flat_map (walk p) b = [].
Proof. intros H. apply flat_nil, Forall_forall. rewrite forallb_forall in H. intros z Hz. exact (fun_walk p z c (H z Hz)). Qed.

Definition q (m : option name * node) : name * node := (qualified (fst m) (snd m), snd m).
Definition pre (k : option name) : name := match k with Some c => c ++ [dot] | None => [] end.
Definition isc (k : option name) : bool := match k with Some _ => true | None => false end.
Lemma pre_q k f l cl b : pre k ++ f = qualified k (Fun f l cl b).
Proof. destruct k; cbn; [rewrite <- app_assoc|]; reflexivity. Qed.

Lemma walk_class c x : not_nested true false x = true ->
  (exists f l cl b, x = Fun f l cl b /\ walk (pre (Some c)) x = [q (Some c, x)] /\ visit (Some c) x = [(Some c, x)]) \/ (exists b, x = Other b).
Proof.
  destruct x as [f l cl b|c0 b|b]; intros NN; cbn -[pre] in *; try discriminate; [left|right; eauto].
  exists f, l, cl, b. split; [reflexivity|]. rewrite (body_walk _ b true NN), (body_visit _ b true NN).
  split; [|reflexivity]. unfold q. cbn [fst snd]. now rewrite (pre_q _ _ l cl b).
Qed.
Lemma walk_eq x : not_nested false false x = true -> plain x = true -> walk [] x = map q (visit None x).
Proof.
  destruct x as [f l cl b|c b|b]; cbn.
  - intros H _. rewrite (body_walk _ b false H), (body_visit _ b false H). reflexivity.
  - intros H L. rewrite forallb_forall in H, L. induction b as [|z b IH]; [reflexivity|].
    cbn [flat_map]. rewrite map_app, IH; try (intros u Hu; apply H || apply L; right; exact Hu). f_equal.
    destruct (walk_class c z (H z (or_introl eq_refl))) as [(f & l & cl & d & -> & W & V)|(d & ->)].
    + change (c ++ [dot]) with (pre (Some c)). rewrite W, V. reflexivity.
    + specialize (L _ (or_introl eq_refl)). cbn in L. change (flat_map (visit (Some c)) d) with (visit (Some c) (Other d)).
      cbn [walk]. now rewrite defs_visit.
  - intros _ L. change (flat_map (visit None) b) with (visit None (Other b)). now rewrite defs_visit.
Qed.
Lemma walk_incl x : not_nested false false x = true -> incl (walk [] x) (map q (visit None x)).
Proof.
  destruct x as [f l cl b|c b|b]; cbn.
  - intros H. rewrite (body_walk _ b false H), (body_visit _ b false H). apply incl_refl.
  - intros H. rewrite forallb_forall in H. intros p Hp. apply in_flat_map in Hp as (z & Hz & Hp).
    destruct (walk_class c z (H z Hz)) as [(f & l & cl & d & -> & W & V)|(d & ->)].
    + change (c ++ [dot]) with (pre (Some c)) in Hp. rewrite W in Hp. apply in_map_iff. destruct Hp as [<-|[]].
      eexists. split; [reflexivity|]. apply in_flat_map. exists (Fun f l cl d). split; [exact Hz|]. rewrite V. left. reflexivity.
    + destruct Hp.
  - intros _ p [].
Qed.

Lemma visit_inside k x : forall k' y, In (k', y) (visit k x) <-> inside k x k' y.
Proof.
  revert k. induction x as [f l cl b IH|c b IH|b IH] using node_nested; intros k k' y; rewrite Forall_forall in IH; cbn; split.
  - intros [E|E]; [injection E as <- <-; eapply I_fun; reflexivity|]. apply in_flat_map in E as (z & Hz & E).
    eapply I_fun_body; [reflexivity|exact Hz|]. now apply IH.
  - intros E. inversion E as [? ? ? ? X|? ? ? ? z ? ? X Hz X2|? ? z ? ? X Hz X2|? z ? ? X Hz X2]; subst; try discriminate; [left; reflexivity|].
    injection X as <- <- <- <-. right. apply in_flat_map. exists z. split; [exact Hz|]. now apply IH.
  - intros E. apply in_flat_map in E as (z & Hz & E). eapply I_cls; [reflexivity|exact Hz|]. now apply IH.
  - intros E. inversion E as [? ? ? ? X|? ? ? ? z ? ? X Hz X2|? ? z ? ? X Hz X2|? z ? ? X Hz X2]; subst; try discriminate.
    injection X as <- <-. apply in_flat_map. exists z. split; [exact Hz|]. now apply IH.
  - intros E. apply in_flat_map in E as (z & Hz & E). eapply I_other; [reflexivity|exact Hz|]. now apply IH.
  - intros E. inversion E as [? ? ? ? X|? ? ? ? z ? ? X Hz X2|? ? z ? ? X Hz X2|? z ? ? X Hz X2]; subst; try discriminate.
    injection X as <-. apply in_flat_map. exists z. split; [exact Hz|]. now apply IH.
Qed.
Lemma members_spec t k x : In (k, x) (members t) <-> defined_in t k x.
Proof.
  unfold members, defined_in. rewrite in_flat_map. split; intros (y & Hy & E); exists y; (split; [exact Hy|]); now apply visit_inside.
Qed.

Lemma functions_eq t : accepts t = true -> forallb plain t = true -> functions t = map q (members t).
Proof.
  unfold accepts, functions, members. intros A L. rewrite forallb_forall in A, L. induction t as [|x t IH]; [reflexivity|].
  cbn [flat_map]. rewrite map_app, IH; try (intros u Hu; apply A || apply L; right; exact Hu).
  f_equal. apply walk_eq; [apply A|apply L]; left; reflexivity.
Qed.
Lemma functions_incl t : accepts t = true -> incl (functions t) (map q (members t)).
Proof.
  unfold accepts, functions, members. intros A p Hp. rewrite forallb_forall in A. apply in_flat_map in Hp as (x & Hx & Hp).
  apply (walk_incl x (A x Hx)) in Hp. apply in_map_iff in Hp as (m & <- & Hm). apply in_map, in_flat_map. eauto.
Qed.

Lemma lenses t : accepts t = true -> forallb plain t = true ->
  exists ms, (forall k x, In (k, x) ms <-> defined_in t k x) /\
    code_lens t = map (fun m => (Z.max (Z.of_nat (fline (snd m)) - 1) 0, qualified (fst m) (snd m))) ms.
Proof.
  intros A L. exists (members t). split; [exact (members_spec t)|]. unfold code_lens. rewrite functions_eq, map_map by assumption. reflexivity.
Qed.

Lemma name_eqb_spec a b : name_eqb a b = true <-> a = b.
Proof. unfold name_eqb. destruct (list_eq_dec Nat.eq_dec a b); split; congruence. Qed.
Lemma mem1 a b : mem a [b] = true <-> a = b.
Proof. cbn. rewrite orb_false_r. apply name_eqb_spec. Qed.
Lemma selects k x : is_selected [qualified k x] k (fname x) = true.
Proof.
  unfold is_selected. destruct k as [c|]; cbn [qualified].
  - change (c ++ [dot] ++ fname x) with (c ++ dot :: fname x). destruct (mem c _); [reflexivity|].
    apply orb_true_iff. left. now apply mem1.
  - apply orb_true_iff. right. now apply mem1.
Qed.
Lemma lens_verifies t l a : accepts t = true -> In (l, a) (code_lens t) ->
  exists k x, defined_in t k x /\ l = Z.max (Z.of_nat (fline x) - 1) 0 /\ a = qualified k x /\
    forall declared, contract_only [a] false declared k (fname x) = declared.
Proof.
  intros A H. unfold code_lens in H. apply in_map_iff in H as (p & E & Hp). injection E as <- <-.
  apply (functions_incl t A) in Hp. apply in_map_iff in Hp as ((k & x) & <- & Hm). exists k, x. cbn.
  split; [now apply members_spec|]. split; [reflexivity|]. split; [reflexivity|]. intros declared.
  unfold contract_only. rewrite selects. cbn. now rewrite orb_false_r.
Qed.

Lemma split_dot a b c d : identifier a -> identifier b -> a ++ dot :: c = b ++ dot :: d -> a = b /\ c = d.
Proof.
  unfold identifier. revert b. induction a as [|h a IH]; intros [|h' b] Ha Hb E; cbn in E; injection E.
  - now intros ->.
  - intros _ <-. exfalso. apply Hb. left. reflexivity.
  - intros _ ->. exfalso. apply Ha. left. reflexivity.
  - intros E2 ->. destruct (IH b) as [-> ->]; [firstorder|firstorder|exact E2|auto].
Qed.
Lemma no_dot a b c : identifier a -> a <> b ++ dot :: c.
Proof. intros H ->. apply H. apply in_app_iff. right. left. reflexivity. Qed.
Lemma only_method c x k y imported declared : identifier c -> identifier (fname x) ->
  (forall c', k = Some c' -> identifier c') -> identifier (fname y) ->
  contract_only [qualified (Some c) x] imported declared k (fname y) = false -> k = Some c /\ fname y = fname x.
Proof.
  intros Hc Hx Hk Hy H. unfold contract_only in H. cbn [negb] in H. rewrite andb_false_r in H. cbn [orb andb] in H.
  apply orb_false_iff in H as [_ H]. apply negb_false_iff in H. unfold is_selected in H. cbn [qualified] in H.
  apply orb_true_iff in H as [H|H].
  - destruct k as [c'|]; [|discriminate]. specialize (Hk c' eq_refl). destruct (mem c' _) eqn:M.
    + apply mem1 in M. exfalso. exact (no_dot _ _ _ Hk M).
    + apply mem1 in H. change (c' ++ [dot] ++ fname y) with (c' ++ dot :: fname y) in H.
      apply split_dot in H as [-> ->]; auto.
  - apply mem1 in H. exfalso. exact (no_dot _ _ _ Hy H).
Qed.
Lemma only_function x k y imported declared : identifier (fname x) ->
  contract_only [qualified None x] imported declared k (fname y) = false ->
  fname y = fname x \/ k = Some (fname x).
Proof.
  intros Hx H. unfold contract_only in H. cbn [negb] in H. rewrite andb_false_r in H. cbn [orb andb] in H.
  apply orb_false_iff in H as [_ H]. apply negb_false_iff in H. unfold is_selected in H. cbn [qualified] in H.
  apply orb_true_iff in H as [H|H]; [|left; now apply mem1].
  destruct k as [c'|]; [|discriminate]. destruct (mem c' _) eqn:M; [right; apply mem1 in M; now rewrite M|].
  apply mem1 in H. exfalso. symmetry in H. exact (no_dot _ _ _ Hx H).
Qed.

Lemma first_some w l a cl : first_contract w l = Some (a, cl) ->
  exists x, In (a, x) l /\ fname x = w /\ fclauses x = cl /\ cl <> [].
Proof.
  induction l as [|(b & x) l IH]; cbn; [discriminate|]. destruct (name_eqb (fname x) w) eqn:E.
  - apply name_eqb_spec in E. intros H. exists x. destruct (fclauses x) eqn:F; [discriminate|]. injection H as <- <-.
    split; [left; reflexivity|]. repeat split; auto. discriminate.
  - intros H. destruct (IH H) as (y & Hy & R). exists y. split; [right; exact Hy|exact R].
Qed.
Lemma hover_sound w t a cl : accepts t = true -> contract_hover w t = Some (a, cl) ->
  exists k x, defined_in t k x /\ fname x = w /\ a = qualified k x /\ cl = fclauses x /\ cl <> [].
Proof.
  intros A H. apply first_some in H as (x & Hx & E & F & N). apply (functions_incl t A) in Hx.
  apply in_map_iff in Hx as ((k & y) & E2 & Hm). injection E2 as <- <-. exists k, y.
  split; [now apply members_spec|]. auto.
Qed.
Lemma hover_unique w t k x : accepts t = true -> forallb plain t = true -> defined_in t k x -> fname x = w -> fclauses x <> [] ->
  (forall k' x', defined_in t k' x' -> fname x' = w -> k' = k /\ x' = x) ->
  contract_hover w t = Some (qualified k x, fclauses x).
Proof.
  intros A L D E N U. unfold contract_hover. rewrite functions_eq by assumption.
  assert (U2 : forall k' x', In (k', x') (members t) -> fname x' = w -> k' = k /\ x' = x) by (intros k' x' H; apply U; now apply members_spec).
  apply members_spec in D. clear U. induction (members t) as [|(k' & x') l IH]; [destruct D|]. cbn.
  destruct (name_eqb (fname x') w) eqn:F.
  - apply name_eqb_spec in F. destruct (U2 k' x' (or_introl eq_refl) F) as [-> ->]. destruct (fclauses x); [congruence|reflexivity].
  - apply IH.
    + destruct D as [D|D]; [|exact D]. injection D as -> ->. exfalso. assert (name_eqb (fname x) w = true) by now apply name_eqb_spec. congruence.
    + intros k2 x2 H. apply U2. right. exact H.
Qed.
