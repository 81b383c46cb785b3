(** Executing given commands, for examples and counterexamples. *)
From Coq Require Import List Bool Arith ZArith QArith Lqa Lia.
From Verif Require Import ThrModel ThrSpec ThrProofs.
Import ListNotations.
Local Open Scope nat_scope.

Inductive command :=
  | CWrite (i : nat) (o : val) (f : nat) (v : val)
  | CCreate (i m : nat) (args : list val)
  | CStart (i t : nat) (opts : list nat)
  | CJoin (i t : nat) (opts : list nat)
  | CFinish (t : nat)
  | CFail (t : nat).

Definition is_running (st : state) (i : nat) : bool :=
  (i <? length (table st)) && match e_status (thread st i) with Running => true | _ => false end.

Definition ended (st : state) (t : nat) : bool :=
  match e_status (thread st t) with Done | Failed => true | _ => false end.

Section Run.
  Variables (sub : nat -> nat -> bool) (P : nat -> method).

  Definition perform (st : state) (c : command) : option (label * state) :=
    match c with
    | CWrite i o f v =>
        if is_running st i && Qle_bool 1 (e_perm (thread st i) (RField o f))
        then Some (LOther, St (fun o' f' => if val_eqb o o' && (f =? f') then v else heap st o' f') (table st))
        else None
    | CCreate i m args =>
        if is_running st i && (length args =? length (m_types (P m)))
        then let t := length (table st) in
             let st1 := St (heap st) (table st ++ [En m args [] Created (fun _ => 0%Q)]) in
             match exec sub P st1 (e_perm (thread st i)) (create_stmts t m (m_types (P m)) args) with
             | Some (p', ok) => Some (LCreate i t m args ok, set_perm st1 i p')
             | None => None
             end
        else None
    | CStart i t opts =>
        if is_running st i && (t <? length (table st))
        then let st1 := begin_thread P st t in
             match exec sub P st1 (e_perm (thread st i)) (start_stmts P t opts) with
             | Some (p', ok) =>
                 Some (LStart i t opts ok,
                       set_perm (set_perm st1 t (amounts st1 (tr_asn t None (m_pre (P (e_meth (thread st t))))))) i p')
             | None => None
             end
        else None
    | CJoin i t opts =>
        if is_running st i && (t <? length (table st)) && ended st t
        then match exec sub P st (e_perm (thread st i)) (join_stmts P t opts) with
             | Some (p', ok) =>
                 Some (LJoin i t opts ok,
                       set_perm
                         (set_perm st t (fun r => if res_eqb (RThreadPost (VThread t)) r then e_perm (thread st t) r
                                                  else (e_perm (thread st t) r - (p' r - e_perm (thread st i) r))%Q))
                         i p')
             | None => None
             end
        else None
    | CFinish t =>
        if is_running st t && (0 <? t)
        then let e := thread st t in
             let l := tr_asn t None (m_post (P (e_meth e))) in
             match exhale sub P st (e_perm e) l with
             | Some _ => Some (LOther, set_thread st t (En (e_meth e) (e_args e) (e_olds e) Done (amounts st l)))
             | None => None
             end
        else None
    | CFail t =>
        if is_running st t && (0 <? t)
        then let e := thread st t in
             match m_exc (P (e_meth e)) with
             | Some post =>
                 let l := tr_asn t None post in
                 match exhale sub P st (e_perm e) l with
                 | Some _ => Some (LFail t, set_thread st t (En (e_meth e) (e_args e) (e_olds e) Failed (amounts st l)))
                 | None => None
                 end
             | None => None
             end
        else None
    end.

  Lemma is_running_spec st i : is_running st i = true -> i < length (table st) /\ e_status (thread st i) = Running.
  Proof.
    unfold is_running. intros H. apply andb_true_iff in H as (L & S0). apply Nat.ltb_lt in L. split; [exact L|].
    destruct (e_status (thread st i)); congruence.
  Qed.

  Lemma perform_sound st c l st' : perform st c = Some (l, st') -> step sub P st l st'.
  Proof.
    destruct c as [i o f v|i m args|i t opts|i t opts|t|t]; cbn [perform]; intros E.
    - destruct (is_running st i) eqn:R; [|discriminate]. apply is_running_spec in R as (L & R).
      destruct (Qle_bool 1 (e_perm (thread st i) (RField o f))) eqn:Q; [|discriminate]. apply qle_bool in Q.
      inversion E; subst. apply s_write with (i := i); assumption.
    - destruct (is_running st i) eqn:R; [|discriminate]. apply is_running_spec in R as (L & R).
      destruct (Nat.eqb_spec (length args) (length (m_types (P m)))) as [Le|]; [|discriminate]. cbn [andb] in E.
      match type of E with match ?x with _ => _ end = _ => destruct x as [(p' & ok)|] eqn:X end; [|discriminate].
      inversion E; subst. apply s_create; assumption.
    - destruct (is_running st i) eqn:R; [|discriminate]. apply is_running_spec in R as (L & R).
      destruct (Nat.ltb_spec t (length (table st))) as [Lt|]; [|discriminate]. cbn [andb] in E.
      match type of E with match ?x with _ => _ end = _ => destruct x as [(p' & ok)|] eqn:X end; [|discriminate].
      inversion E; subst. apply s_start; assumption.
    - destruct (is_running st i) eqn:R; [|discriminate]. apply is_running_spec in R as (L & R).
      destruct (Nat.ltb_spec t (length (table st))) as [Lt|]; [|discriminate]. cbn [andb] in E.
      destruct (ended st t) eqn:EN; [|discriminate].
      match type of E with match ?x with _ => _ end = _ => destruct x as [(p' & ok)|] eqn:X end; [|discriminate].
      inversion E; subst. apply s_join; try assumption. unfold ended in EN. destruct (e_status (thread st t)); auto; discriminate.
    - destruct (is_running st t) eqn:R; [|discriminate]. apply is_running_spec in R as (L & R).
      destruct (Nat.ltb_spec 0 t) as [Lt|]; [|discriminate]. cbn [andb] in E.
      match type of E with match ?x with _ => _ end = _ => destruct x as [p'|] eqn:X end; [|discriminate].
      inversion E; subst. apply s_finish with (p' := p'); auto.
    - destruct (is_running st t) eqn:R; [|discriminate]. apply is_running_spec in R as (L & R).
      destruct (Nat.ltb_spec 0 t) as [Lt|]; [|discriminate]. cbn [andb] in E.
      destruct (m_exc (P (e_meth (thread st t)))) as [post|] eqn:EXC; [|discriminate].
      match type of E with match ?x with _ => _ end = _ => destruct x as [p'|] eqn:X end; [|discriminate].
      inversion E; subst. apply s_fail with (post := post) (p' := p'); auto.
  Qed.

  Fixpoint run (st : state) (cs : list command) : option (list label * state) :=
    match cs with
    | [] => Some ([], st)
    | c :: cs' =>
        match perform st c with
        | None => None
        | Some (l, st1) =>
            match run st1 cs' with
            | None => None
            | Some (tr, st2) => Some (l :: tr, st2)
            end
        end
    end.

  Lemma steps_cons st1 l st2 tr st3 : step sub P st1 l st2 -> steps sub P st2 tr st3 -> steps sub P st1 (l :: tr) st3.
  Proof.
    intros S R. induction R as [st|st2 tr st3 l' st4 R IH S'].
    - apply (steps_snoc sub P st1 [] st1 l st (steps_nil sub P st1) S).
    - apply (steps_snoc sub P st1 (l :: tr) st3 l' st4 (IH S) S').
  Qed.

  Lemma run_sound cs : forall st tr st', run st cs = Some (tr, st') -> steps sub P st tr st'.
  Proof.
    induction cs as [|c cs IH]; intros st tr st' E; cbn [run] in E.
    - inversion E; subst. constructor.
    - destruct (perform st c) as [(l & st1)|] eqn:S; [|discriminate].
      destruct (run st1 cs) as [(tr' & st2)|] eqn:R; [|discriminate]. inversion E; subst.
      apply steps_cons with st1; [exact (perform_sound _ _ _ _ S)|exact (IH _ _ _ R)].
  Qed.

  (** What a run shows, evaluated. *)
  Lemma run_to cs st tr (test : state -> bool) :
    option_map fst (run st cs) = Some tr ->
    match run st cs with Some (_, st') => test st' | None => false end = true ->
    exists st', steps sub P st tr st' /\ test st' = true.
  Proof.
    destruct (run st cs) as [(tr' & st')|] eqn:R; [|discriminate]. cbn [option_map fst]. intros E T. inversion E; subst.
    exists st'. split; [exact (run_sound cs st tr st' R)|exact T].
  Qed.
End Run.

(** ** The type checks at creation and the constructor's arguments *)
Lemma type_checks_parity sub P st p vts :
  truth sub P st p (type_checks vts) =
  Nat.even (length (filter (fun vt => negb (has_type sub (fst vt) (snd vt))) vts)).
Proof.
  unfold type_checks.
  assert (X : forall l b, truth sub P st p (fold_left (fun acc vt => BIff acc (BType (ELit (fst vt)) (snd vt))) l b) =
            Bool.eqb (truth sub P st p b) (Nat.even (length (filter (fun vt => negb (has_type sub (fst vt) (snd vt))) l)))).
  { induction l as [|vt l IH]; intros b; cbn [fold_left filter length].
    - cbn [Nat.even]. destruct (truth sub P st p b); reflexivity.
    - rewrite IH. cbn [truth eval]. destruct (has_type sub (fst vt) (snd vt)); cbn [negb].
      + destruct (truth sub P st p b); reflexivity.
      + cbn [length]. rewrite Nat.even_succ, <- Nat.negb_even.
        destruct (truth sub P st p b), (Nat.even (length (filter (fun vt0 => negb (has_type sub (fst vt0) (snd vt0))) l))); reflexivity. }
  rewrite X. cbn [truth]. destruct (Nat.even _); reflexivity.
Qed.

Lemma type_check_passes sub P st p args types :
  truth sub P st p (type_checks (combine args types)) = true <-> Nat.Even (ill_typed sub args types).
Proof. rewrite type_checks_parity. unfold ill_typed. apply Nat.even_spec. Qed.

Lemma kw_eqb_eq a b : kw_eqb a b = true <-> a = b.
Proof. destruct a, b; cbn; split; congruence. Qed.

Lemma index_of_spec k ks i : index_of k ks = Some i -> nth_error ks i = Some k.
Proof.
  revert i. induction ks as [|x ks IH]; intros i E; [discriminate|]. cbn [index_of] in E.
  destruct (kw_eqb k x) eqn:K; [apply kw_eqb_eq in K; inversion E; subst; reflexivity|].
  destruct (index_of k ks) as [j|]; [|discriminate]. inversion E; subst. cbn [nth_error]. exact (IH j eq_refl).
Qed.

Lemma index_of_none k ks : index_of k ks = None <-> ~ In k ks.
Proof.
  induction ks as [|x ks IH]; cbn [index_of]; [split; [intros _ []|reflexivity]|].
  destruct (kw_eqb k x) eqn:K.
  - apply kw_eqb_eq in K. subst. split; [discriminate|]. intros N. exfalso. apply N. left. reflexivity.
  - assert (k <> x) by (intros ->; rewrite (proj2 (kw_eqb_eq x x) eq_refl) in K; discriminate).
    destruct (index_of k ks) as [j|]; cbn [option_map].
    + split; [discriminate|]. intros N. exfalso. assert (X : Some j = None) by (apply IH; intros I; apply N; right; exact I). discriminate.
    + split; [|reflexivity]. intros _ [<-|I]; [contradiction|]. exact (proj1 IH eq_refl I).
Qed.

Lemma nodup_tail {A} (a b : list A) : NoDup (a ++ b) -> NoDup b.
Proof. induction a as [|x a IH]; cbn [app]; intros H; [exact H|]. inversion H; subst. auto. Qed.

Lemma get_arg_spec nargs ks index k pos :
  nth_error params index = Some k -> python_call nargs ks ->
  (get_arg nargs ks index k = Some pos <-> passed nargs ks k pos).
Proof.
  intros NP (LP & ND). unfold get_arg, passed.
  assert (UNI : forall p, nth_error params p = Some k -> p = index).
  { intros p Hp. assert (NDP : NoDup params) by (repeat constructor; cbn; intuition discriminate).
    apply (proj1 (NoDup_nth_error params) NDP); [apply nth_error_Some; congruence|congruence]. }
  assert (NOT : index < nargs -> ~ In k ks).
  { intros L I. revert ND.
    assert (IN : In k (firstn nargs params)).
    { apply nth_error_In with index. clear - NP L. revert index nargs NP L. induction params as [|x l IH]; intros i n NP L; [destruct i; discriminate|].
      destruct n as [|n]; [lia|]. destruct i as [|i]; cbn [firstn nth_error] in *; [exact NP|apply IH; [exact NP|lia]]. }
    intros ND. apply in_split in I as (a & b & ->). apply in_split in IN as (c & d & E). rewrite E in ND.
    rewrite <- app_assoc in ND. cbn [app] in ND. apply NoDup_remove_2 in ND. apply ND. apply in_or_app. right. apply in_or_app. right.
    apply in_or_app. right. left. reflexivity. }
  assert (NDK : NoDup ks) by (exact (nodup_tail _ _ ND)).
  destruct (Nat.ltb_spec index nargs) as [L|G].
  - split.
    + intros E. inversion E; subst. left. auto.
    + intros [(E & Lp)|(Gp & E)]; [rewrite (UNI pos E); reflexivity|]. exfalso. apply (NOT L). exact (nth_error_In _ _ E).
  - split.
    + intros E. destruct (index_of k ks) as [j|] eqn:J; [|discriminate]. inversion E; subst. right. split; [lia|].
      rewrite Nat.add_comm, Nat.add_sub. exact (index_of_spec k ks j J).
    + intros [(E & Lp)|(Gp & E)]; [rewrite (UNI pos E) in Lp; lia|].
      destruct (index_of k ks) as [j|] eqn:J.
      * apply index_of_spec in J. cbn [option_map]. f_equal.
        assert (j = pos - nargs).
        { apply (proj1 (NoDup_nth_error ks) NDK); [apply nth_error_Some; congruence|congruence]. }
        lia.
      * apply index_of_none in J. exfalso. apply J. exact (nth_error_In _ _ E).
Qed.

Lemma handle_bound nargs ks g t a :
  python_call nargs ks -> handle_args nargs ks = Bound g t a ->
  passed nargs ks KTarget t /\ passed nargs ks KArgs a /\
  (forall pos, g = Some pos <-> passed nargs ks KGroup pos) /\
  (forall pos, passed nargs ks KKwargs pos \/ passed nargs ks KDaemon pos -> pos = 0 /\ nargs = 0).
Proof.
  intros PC H. unfold handle_args in H.
  destruct (get_arg nargs ks 1 KTarget) as [t'|] eqn:T; [|discriminate].
  destruct (truthy (get_arg nargs ks 4 KKwargs)) eqn:K; [discriminate|].
  destruct (truthy (get_arg nargs ks 5 KDaemon)) eqn:D; [discriminate|]. cbn [orb] in H.
  destruct (get_arg nargs ks 3 KArgs) as [a'|] eqn:A; [|discriminate]. inversion H; subst.
  split; [apply (get_arg_spec nargs ks 1 KTarget t eq_refl PC); exact T|].
  split; [apply (get_arg_spec nargs ks 3 KArgs a eq_refl PC); exact A|].
  split; [intros pos; apply (get_arg_spec nargs ks 0 KGroup pos eq_refl PC)|].
  intros pos X.
  assert (Z : pos = 0).
  { destruct X as [X|X].
    - apply (get_arg_spec nargs ks 4 KKwargs pos eq_refl PC) in X. rewrite X in K. destruct pos; [reflexivity|discriminate].
    - apply (get_arg_spec nargs ks 5 KDaemon pos eq_refl PC) in X. rewrite X in D. destruct pos; [reflexivity|discriminate]. }
  subst pos. split; [reflexivity|]. destruct X as [[(X & _)|(X & _)]|[(X & _)|(X & _)]]; cbn in X; try discriminate; lia.
Qed.
