(** Running concrete programs with locks: a computable version of the steps, for examples. *)
From Coq Require Import List Bool Arith ZArith QArith Lqa Lia.
From Verif Require Import LockModel LockSpec LockProofs LockProofs2 LockProofs3 LockProofs4.
Import ListNotations.
Local Open Scope nat_scope.

Fixpoint support (obj : Z) (h : heap) (a : asn) : list loc :=
  match a with
  | AAcc e f _ => [(eval obj h e, f)]
  | AB _ => []
  | AImp _ a => support obj h a
  | AAnd a b => support obj h a ++ support obj h b
  end.

Lemma support_spec obj h a l : ~ In l (support obj h a) -> (amounts obj h a l == 0)%Q.
Proof.
  induction a as [e f q|t|t a IH|a IHa b IHb]; cbn; intros N.
  - destruct (loc_eqb _ l) eqn:E; [apply loc_eqb_eq in E; exfalso; apply N; auto|lra].
  - lra.
  - destruct (istrue obj h t); [auto|lra].
  - rewrite IHa, IHb; [lra| |]; intros I; apply N; apply in_or_app; auto.
Qed.

Inductive cmd :=
  | KNew (i : nat) | KRead (i : nat) (l : loc) | KWrite (i : nat) (l : loc) (v : Z)
  | KLock (i C : nat) (obj : Z) (own : bool) | KInit (i k : nat) | KAcquire (i k : nat) | KRelease (i k : nat)
  | KFold (i k : nat) (q : Q) | KUnfold (i k : nat) (q : Q) | KGive (i j : nat) (r : res) (q : Q) | KCall.

Section Run.
  Variable sub : nat -> nat -> bool.
  Variable F : family.

  Definition exec1_f (h : heap) (locks : list lock) (a : act) (c : vcmd) : option (act * bool) :=
    match c with
    | Fold k q =>
        let A := amounts (obj_of locks k) (a_view a) (inv_of sub F locks k) in
        if negb (Qle_bool q 0) && holds (obj_of locks k) (a_view a) (inv_of sub F locks k) &&
           forallb (fun l => Qle_bool (q * A l) (a_perm a (RF l))) (support (obj_of locks k) (a_view a) (inv_of sub F locks k))
        then Some (Act (fun r => match r with
                         | RF l => (a_perm a r - q * A l)%Q
                         | RInv k' => if k =? k' then (a_perm a r + q)%Q else a_perm a r
                         | _ => a_perm a r
                         end)
               (a_view a)
               (fun k' => if (k =? k') && negb (has (a_perm a) (RInv k)) then a_view a else a_snap a k'), true)
        else None
    | Unfold k q =>
        let v := refresh (inside sub F h locks k a) a in
        if negb (Qle_bool q 0) && Qle_bool q (a_perm a (RInv k))
        then Some (Act (fun r => match r with
                         | RF l => (a_perm a r + q * amounts (obj_of locks k) v (inv_of sub F locks k) l)%Q
                         | RInv k' => if k =? k' then (a_perm a r - q)%Q else a_perm a r
                         | _ => a_perm a r
                         end)
               v (a_snap a), holds (obj_of locks k) v (inv_of sub F locks k))
        else None
    | Inhale r q => Some (gain h a r q, true)
    | Exhale r q => if Qle_bool q (a_perm a r) then Some (lose a r q, true) else None
    | ExhaleRel k =>
        if Qle_bool 1 (a_perm a (rel_res (a_perm a) k)) then Some (lose a (rel_res (a_perm a) k) 1, true) else None
    end.

  Fixpoint exec_f (h : heap) (locks : list lock) (a : act) (cs : list vcmd) : option (act * bool) :=
    match cs with
    | [] => Some (a, true)
    | c :: cs' => match exec1_f h locks a c with
                  | Some (a1, b) => match exec_f h locks a1 cs' with Some (a2, b') => Some (a2, b && b') | None => None end
                  | None => None
                  end
    end.

  Lemma exec1_sound h locks a c a' b : (forall r, (0 <= a_perm a r)%Q) -> exec1_f h locks a c = Some (a', b) -> exec1 sub F h locks a c a' b.
  Proof.
    intros N E. destruct c as [k q|k q|r q|r q|k]; cbn in E.
    - destruct (_ && _ && _) eqn:T in E; [|discriminate]. inversion E; subst. clear E.
      apply andb_true_iff in T as (T & T3). apply andb_true_iff in T as (T1 & T2). apply qpos in T1. apply x_fold; auto.
      intros l. destruct (in_dec (fun x y => match loc_eqb x y as b return loc_eqb x y = b -> {x = y} + {x <> y} with
          | true => fun E => left (proj1 (loc_eqb_eq x y) E)
          | false => fun E => right (fun e => eq_true_false_abs _ (proj2 (loc_eqb_eq x y) e) E) end eq_refl) l
          (support (obj_of locks k) (a_view a) (inv_of sub F locks k))) as [I|I].
      + apply Qle_bool_iff. exact (proj1 (forallb_forall _ _) T3 l I).
      + rewrite (support_spec _ _ _ _ I). specialize (N (RF l)). lra.
    - destruct (_ && _) eqn:T in E; [|discriminate]. inversion E; subst. clear E. apply andb_true_iff in T as (T1 & T2).
      apply qpos in T1. apply Qle_bool_iff in T2. now apply x_unfold.
    - inversion E; subst. apply x_inhale.
    - destruct (Qle_bool _ _) eqn:T; [|discriminate]. inversion E; subst. apply x_exhale. now apply Qle_bool_iff.
    - destruct (Qle_bool _ _) eqn:T; [|discriminate]. inversion E; subst. apply x_rel. now apply Qle_bool_iff.
  Qed.

  Lemma exec_sound h locks cs : (match cs with [] => True | _ :: cs' => forall k q, ~ In (Fold k q) cs' end) ->
    forall a a' b, (forall r, (0 <= a_perm a r)%Q) -> exec_f h locks a cs = Some (a', b) -> exec sub F h locks a cs a' b.
  Proof.
    assert (NF : forall c a a' b, (forall k q, c <> Fold k q) -> exec1_f h locks a c = Some (a', b) -> exec1 sub F h locks a c a' b).
    { intros c a a' b D E. destruct c as [k q|k q|r q|r q|k]; [exfalso; exact (D k q eq_refl)|..]; cbn in E.
      - destruct (_ && _) eqn:T in E; [|discriminate]. inversion E; subst. clear E. apply andb_true_iff in T as (T1 & T2).
        apply qpos in T1. apply Qle_bool_iff in T2. now apply x_unfold.
      - inversion E; subst. apply x_inhale.
      - destruct (Qle_bool _ _) eqn:T; [|discriminate]. inversion E; subst. apply x_exhale. now apply Qle_bool_iff.
      - destruct (Qle_bool _ _) eqn:T; [|discriminate]. inversion E; subst. apply x_rel. now apply Qle_bool_iff. }
    assert (ALL : forall cs, (forall k q, ~ In (Fold k q) cs) -> forall a a' b, exec_f h locks a cs = Some (a', b) -> exec sub F h locks a cs a' b).
    { clear cs. intros cs. induction cs as [|c cs IH]; intros D a a' b E; cbn in E; [inversion E; constructor|].
      destruct (exec1_f h locks a c) as [(a1, b1)|] eqn:E1; [|discriminate]. destruct (exec_f h locks a1 cs) as [(a2, b2)|] eqn:E2; [|discriminate].
      inversion E; subst. eapply x_cons; [apply NF; [intros k q ->; apply (D k q); left; reflexivity|exact E1]|]. apply IH; [|exact E2].
      intros k q I. apply (D k q). right. exact I. }
    intros D a a' b N E. destruct cs as [|c cs]; cbn in E; [inversion E; constructor|].
    destruct (exec1_f h locks a c) as [(a1, b1)|] eqn:E1; [|discriminate]. destruct (exec_f h locks a1 cs) as [(a2, b2)|] eqn:E2; [|discriminate].
    inversion E; subst. eapply x_cons; [exact (exec1_sound _ _ _ _ _ _ N E1)|]. exact (ALL cs D _ _ _ E2).
  Qed.

  Definition perform (st : state) (c : cmd) : option (label * state) :=
    match c with
    | KNew i =>
        let a := act_of st i in
        if i <? length (s_acts st) then
          Some (LOther, set_act (St (s_heap st) (s_next st + 1) (s_locks st) (s_acts st)) i
             (Act (fun r => match r with
                            | RF l => if Z.eqb (fst l) (s_next st) then (a_perm a r + 1)%Q else a_perm a r
                            | _ => a_perm a r
                            end) (refresh (s_heap st) a) (a_snap a)))
        else None
    | KRead i l =>
        if (i <? length (s_acts st)) && negb (Qle_bool (a_perm (act_of st i) (RF l)) 0)
        then Some (LRead i l (a_view (act_of st i) l) (s_heap st l), st) else None
    | KWrite i l v =>
        let a := act_of st i in
        if (i <? length (s_acts st)) && Qle_bool 1 (a_perm a (RF l))
        then Some (LWrite i l, set_act (St (set_heap (s_heap st) l v) (s_next st) (s_locks st) (s_acts st)) i
                                 (Act (a_perm a) (set_heap (a_view a) l v) (a_snap a)))
        else None
    | KLock i C obj own =>
        let k := length (s_locks st) in
        let st1 := St (s_heap st) (s_next st) (s_locks st ++ [Lk C obj false false]) (s_acts st) in
        if i <? length (s_acts st) then
          match exec_f (s_heap st1) (s_locks st1) (act_of st1 i) (new_code own k) with
          | Some (a', b) => Some (LAssume i k b, set_act (if own then st1 else set_lock st1 k (Lk C obj true false)) i a')
          | None => None
          end
        else None
    | KInit i k =>
        if (i <? length (s_acts st)) && (k <? length (s_locks st)) && negb (k_ready (lock_of st k)) then
          match exec_f (s_heap st) (s_locks st) (act_of st i) (init_code k) with
          | Some (a', b) => Some (LAssume i k b, set_act (set_lock st k (Lk (k_class (lock_of st k)) (k_obj (lock_of st k)) true false)) i a')
          | None => None
          end
        else None
    | KAcquire i k =>
        if (i <? length (s_acts st)) && (k <? length (s_locks st)) && (k_ready (lock_of st k) && negb (k_taken (lock_of st k))) then
          match exec_f (s_heap st) (s_locks st) (act_of st i) (acquire_code k) with
          | Some (a', b) => Some (LAssume i k b, set_act (set_lock st k (Lk (k_class (lock_of st k)) (k_obj (lock_of st k)) true true)) i a')
          | None => None
          end
        else None
    | KRelease i k =>
        if (i <? length (s_acts st)) && (k <? length (s_locks st)) then
          match exec_f (s_heap st) (s_locks st) (act_of st i) (release_code k) with
          | Some (a', b) => Some (LRelease i k (k_taken (lock_of st k)),
              set_act (set_lock st k (Lk (k_class (lock_of st k)) (k_obj (lock_of st k)) (k_ready (lock_of st k)) false)) i a')
          | None => None
          end
        else None
    | KFold i k q =>
        if (i <? length (s_acts st)) && (k <? length (s_locks st)) then
          match exec_f (s_heap st) (s_locks st) (act_of st i) [Fold k q] with
          | Some (a', b) => Some (LAssume i k b, set_act st i a')
          | None => None
          end
        else None
    | KUnfold i k q =>
        if (i <? length (s_acts st)) && (k <? length (s_locks st)) then
          match exec_f (s_heap st) (s_locks st) (act_of st i) [Unfold k q] with
          | Some (a', b) => Some (LAssume i k b, set_act st i a')
          | None => None
          end
        else None
    | KGive i j r q =>
        if (i <? length (s_acts st)) && (j <? length (s_acts st)) && negb (i =? j) && (Qle_bool 0 q && Qle_bool q (a_perm (act_of st i) r))
        then Some (LOther, set_act (set_act st i (lose (act_of st i) r q)) j (gain (s_heap st) (act_of st j) r q))
        else None
    | KCall => Some (LOther, St (s_heap st) (s_next st) (s_locks st) (s_acts st ++ [no_act]))
    end.

  Lemma perform_sound st c l st' : (forall i r, (0 <= a_perm (act_of st i) r)%Q) -> perform st c = Some (l, st') -> step sub F st l st'.
  Proof.
    intros N E. destruct c; cbn [perform] in E.
    - destruct (_ <? _) eqn:T in E; [|discriminate]. apply Nat.ltb_lt in T. inversion E; subst. now apply t_new.
    - destruct (_ && _) eqn:T in E; [|discriminate]. apply andb_true_iff in T as (T1 & T2). apply Nat.ltb_lt in T1. apply qpos in T2.
      inversion E; subst. now apply t_read.
    - destruct (_ && _) eqn:T in E; [|discriminate]. apply andb_true_iff in T as (T1 & T2). apply Nat.ltb_lt in T1. apply Qle_bool_iff in T2.
      inversion E; subst. now apply t_write.
    - destruct (_ <? _) eqn:T in E; [|discriminate]. apply Nat.ltb_lt in T.
      destruct (exec_f _ _ _ _) as [(a', b)|] eqn:X; [|discriminate]. inversion E; subst. apply (t_lock sub F i C obj own a' b st T).
      apply exec_sound; [|apply N|exact X]. destruct own; [intros ? ? []|]. intros k q [X'|[]]; discriminate.
    - destruct (_ && _ && _) eqn:T in E; [|discriminate]. apply andb_true_iff in T as (T & T3). apply andb_true_iff in T as (T1 & T2).
      apply Nat.ltb_lt in T1, T2. apply negb_true_iff in T3.
      destruct (exec_f _ _ _ _) as [(a', b)|] eqn:X; [|discriminate]. inversion E; subst. apply t_init; auto.
      apply exec_sound; [intros ? ? []|apply N|exact X].
    - destruct (_ && _ && _) eqn:T in E; [|discriminate]. apply andb_true_iff in T as (T & T3). apply andb_true_iff in T as (T1 & T2).
      apply Nat.ltb_lt in T1, T2. apply andb_true_iff in T3 as (T3 & T4). apply negb_true_iff in T4.
      destruct (exec_f _ _ _ _) as [(a', b)|] eqn:X; [|discriminate]. inversion E; subst. apply t_acquire; auto.
      apply exec_sound; [intros k0 q [|[|[]]]; discriminate|apply N|exact X].
    - destruct (_ && _) eqn:T in E; [|discriminate]. apply andb_true_iff in T as (T1 & T2). apply Nat.ltb_lt in T1, T2.
      destruct (exec_f _ _ _ _) as [(a', b)|] eqn:X; [|discriminate]. inversion E; subst. eapply t_release; eauto.
      apply exec_sound; [intros k0 q [|[|[]]]; discriminate|apply N|exact X].
    - destruct (_ && _) eqn:T in E; [|discriminate]. apply andb_true_iff in T as (T1 & T2). apply Nat.ltb_lt in T1, T2.
      destruct (exec_f _ _ _ _) as [(a', b)|] eqn:X; [|discriminate]. inversion E; subst. eapply t_fold; eauto.
      apply exec_sound; [intros k0 q0 []|apply N|exact X].
    - destruct (_ && _) eqn:T in E; [|discriminate]. apply andb_true_iff in T as (T1 & T2). apply Nat.ltb_lt in T1, T2.
      destruct (exec_f _ _ _ _) as [(a', b)|] eqn:X; [|discriminate]. inversion E; subst. eapply t_unfold; eauto.
      apply exec_sound; [intros k0 q0 []|apply N|exact X].
    - destruct (_ && _ && _ && _) eqn:T in E; [|discriminate]. apply andb_true_iff in T as (T & T4). apply andb_true_iff in T as (T & T3).
      apply andb_true_iff in T as (T1 & T2). apply Nat.ltb_lt in T1, T2. apply negb_true_iff, Nat.eqb_neq in T3.
      apply andb_true_iff in T4 as (T4 & T5). apply Qle_bool_iff in T4, T5. inversion E; subst. now apply t_give.
    - inversion E; subst. apply t_call.
  Qed.

  Fixpoint run (st : state) (cs : list cmd) : option (list label * state) :=
    match cs with
    | [] => Some ([], st)
    | c :: cs' => match perform st c with
                  | Some (l, st1) => match run st1 cs' with Some (tr, st2) => Some (l :: tr, st2) | None => None end
                  | None => None
                  end
    end.

  Lemma step_fwd st1 l st2 tr st3 : step sub F st1 l st2 -> steps sub F st2 tr st3 -> steps sub F st1 (l :: tr) st3.
  Proof.
    intros S R. induction R as [st|st2 tr st3 l' st4 R IH S'].
    - exact (steps_snoc sub F st1 [] st1 l st (steps_nil sub F st1) S).
    - exact (steps_snoc sub F st1 (l :: tr) st3 l' st4 (IH S) S').
  Qed.

  Hypothesis FR : framed F.

  Lemma run_sound cs : forall st tr st', Inv sub F st -> run st cs = Some (tr, st') -> steps sub F st tr st'.
  Proof.
    induction cs as [|c cs IH]; intros st tr st' I E; cbn in E; [inversion E; constructor|].
    destruct (perform st c) as [(l, st1)|] eqn:P; [|discriminate]. destruct (run st1 cs) as [(tr', st2)|] eqn:R; [|discriminate].
    inversion E; subst.
    assert (S : step sub F st l st1) by (apply (perform_sound st c); [intros i r; exact (proj1 (i_acts sub F st I i) r)|exact P]).
    exact (step_fwd _ _ _ _ _ S (IH st1 tr' st' (proj1 (inv_step sub F FR st l st1 I S)) R)).
  Qed.

  Lemma run_trace cs tr : option_map fst (run start cs) = Some tr -> exists st, steps sub F start tr st.
  Proof.
    intros E. destruct (run start cs) as [(tr', st)|] eqn:R; [|discriminate]. inversion E; subst. exists st.
    exact (run_sound cs start tr st (inv_start sub F) R).
  Qed.

  (** The test is about the final state. *)
  Lemma run_test cs (test : state -> bool) :
    match run start cs with Some (_, st) => test st | None => false end = true ->
    exists tr st, steps sub F start tr st /\ test st = true.
  Proof.
    intros E. destruct (run start cs) as [(tr, st)|] eqn:R; [|discriminate]. exists tr, st. split; [|exact E].
    exact (run_sound cs start tr st (inv_start sub F) R).
  Qed.

  Lemma run_can cs c l :
    match run start cs with Some (_, st) => option_map fst (perform st c) | None => None end = Some l ->
    exists tr st, steps sub F start tr st /\ can sub F st l.
  Proof.
    intros E. destruct (run start cs) as [(tr, st)|] eqn:R; [|discriminate].
    assert (S : steps sub F start tr st) by exact (run_sound cs start tr st (inv_start sub F) R). exists tr, st. split; [exact S|].
    destruct (perform st c) as [(l', st')|] eqn:P; [|discriminate]. inversion E; subst. exists st'.
    apply (perform_sound st c); [|exact P]. intros i r. exact (inv_nonneg sub F st (proj1 (run_expected sub F FR tr st S)) i r).
  Qed.
End Run.
