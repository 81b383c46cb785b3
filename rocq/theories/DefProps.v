(** Theorems about local variables. *)
From Coq Require Import List Bool Arith NArith ZArith Lia.
From Verif Require Import NamesModel NamesSpec DefModel DefSpec DefProofs DefProofs2.
Import ListNotations.
Local Open Scope nat_scope.

(** C61, partially: a verified method never raises UnboundLocalError, whatever its arguments
    and the loops do.  Missing: methods that call inlined methods or read the variable _, and
    names that are also those of local variables of pure functions (refuted below); exceptions,
    match statements, break, continue and return (not modelled). *)
Theorem C61_locals_partial :
  forall T m, table_ok T -> table_named T -> method_ok T m -> plain (m_body m) -> method_named T m -> runs_fine T m.
Proof. exact locals_fine. Qed.
Print Assumptions C61_locals_partial.

(** The same for pure functions, and Viper's value is the one Python computes.  Missing: names
    that are also those of local variables of other functions (refuted below). *)
Theorem C61_functions_partial :
  forall T, table_ok T -> table_named T -> forall f z, exists w, pcall T f z = PV w /\ vcall T f z = Some w.
Proof. exact functions_fine. Qed.
Print Assumptions C61_functions_partial.

Definition na : name := [97%N].
Definition nb : name := [98%N].
Definition nx : name := [120%N].
Definition ny : name := [121%N].
Definition nz : name := [122%N].
Definition nw : name := [119%N].

(** def f(a): if a < 3: w = 1 else: w = a + a
              return w *)
Definition ex_fun : pfun :=
  PF na [WCond [] 0 (ELt (EVar na) (ELit 3)); WAssign [(0, true)] nw (ELit 1);
         WAssign [(0, false)] nw (EAdd (EVar na) (EVar na))] (EVar nw).

(** def m(b): if b: x = 1 else: x = 2
              while x < b: Invariant(0 < x); x += 1; y = x
              for z in range(b): Invariant(0 < x); x = f(x)
              if 0 < b: y = z *)
Definition ex_body : stmt :=
  SSeq (SIf (EVar nb) (SAssign nx (ELit 1)) (SAssign nx (ELit 2)))
  (SSeq (SWhile (ELt (EVar nx) (EVar nb)) (ELt (ELit 0) (EVar nx)) [nx] (SSeq (SAug nx (ELit 1)) (SAssign ny (EVar nx))))
  (SSeq (SFor nz (EVar nb) (ELt (ELit 0) (EVar nx)) [nx] (SAssign nx (ECall 0 (EVar nx))))
        (SIf (ELt (ELit 0) (EVar nb)) (SAssign ny (EVar nz)) SSkip))).
Definition ex_method : method := Me [nb] ex_body (fun x => x).

Example C61_ex_fun : table_ok [ex_fun] /\ table_named [ex_fun].
Proof.
  split.
  - split; [|exact I]. intros D a. cbn. unfold set, fun_env. cbn. split; [exact I|]. unfold less, truth.
    destruct (Z.ltb a 3); cbn; intuition discriminate.
  - split; [|exact I]. intros x X. cbn in X.
    assert (x = na \/ x = nw) as [-> | ->] by (intuition auto);
      (split; [vm_compute; repeat constructor; congruence|split; [discriminate|intros p y []]]).
Qed.

Lemma less_pos z : truth (less 0 z) = true <-> (0 < z)%Z.
Proof. unfold truth, less. destruct (Z.ltb_spec 0 z); cbn; split; try lia; auto; discriminate. Qed.

Lemma ex_value z : exists w, vcall [ex_fun] 0 z = Some w /\ ((0 < z)%Z -> (0 < w)%Z).
Proof.
  cbn. unfold fun_env, set. cbn. unfold less, truth. destruct (Z.ltb_spec z 3); cbn; eexists; (split; [reflexivity|lia]).
Qed.

Lemma ex_facts z i : In i (vfacts [ex_fun] 0 z) -> i = ident nw.
Proof.
  cbn. unfold fun_env, set. cbn. unfold less, truth. destruct (Z.ltb z 3); cbn; intros [H|[]]; auto.
Qed.

Section ExampleMethod.
  Variable D : N -> bool.
  Variable L : name -> option N.
  Hypothesis LX : L nx = Some (ident nx).
  Hypothesis LY : L ny = Some (ident ny).
  Hypothesis LZ : L nz = Some (ident nz).
  Hypothesis LB : L nb = None.

  Lemma ex_inv v (k : vval -> Prop) x : D (ident nx) = true -> v nx = Some x -> k (Some (less 0 x)) ->
    wpe D [ex_fun] L v (ELt (ELit 0) (EVar nx)) k.
  Proof.
    intros DX VX K. cbn [wpe]. change (pystring_eqb nx [95%N]) with false. cbv iota. rewrite LX, VX. auto.
  Qed.

  Lemma ex_call v (k : vval -> Prop) x : D (ident nx) = true -> v nx = Some x -> k (vcall [ex_fun] 0 x) ->
    wpe D [ex_fun] L v (ECall 0 (EVar nx)) k.
  Proof.
    intros DX VX K. cbn [wpe]. change (pystring_eqb nx [95%N]) with false. cbv iota. rewrite LX, VX. auto.
  Qed.

  Lemma ex_cond v (k : vval -> Prop) x b : D (ident nx) = true -> v nx = Some x -> v nb = Some b -> k (Some (less x b)) ->
    wpe D [ex_fun] L v (ELt (EVar nx) (EVar nb)) k.
  Proof.
    intros DX VX VB K. cbn [wpe]. change (pystring_eqb nx [95%N]) with false. change (pystring_eqb nb [95%N]) with false. cbv iota.
    rewrite LX, LB, VX, VB. auto.
  Qed.

  Lemma ex_var v (k : vval -> Prop) : D (ident nx) = true -> k (v nx) -> wpe D [ex_fun] L v (EVar nx) k.
  Proof. intros DX K. cbn [wpe]. change (pystring_eqb nx [95%N]) with false. cbv iota. rewrite LX. auto. Qed.

  Lemma ex_check v x : D (ident nx) = true -> v nx = Some x -> (0 < x)%Z ->
    (forall y, In y [nx] -> v y <> None) /\
    wpe D [ex_fun] L v (ELt (ELit 0) (EVar nx)) (fun r => exists z, r = Some z /\ truth z = true).
  Proof.
    intros DX VX P. split; [intros y [<-|[]]; congruence|]. eapply ex_inv; [exact DX|exact VX|].
    eexists. split; [reflexivity|now apply less_pos].
  Qed.

  Definition ex_q : venv -> Prop := wp D [ex_fun] L (SIf (ELt (ELit 0) (EVar nb)) (SAssign ny (EVar nz)) SSkip) (fun _ => True).

  Lemma ex_end v b : v nb = Some b -> ((0 < b)%Z -> D (ident nz) = true) -> ex_q v.
  Proof.
    intros VB DZ. unfold ex_q. cbn [wp wpe]. change (pystring_eqb nb [95%N]) with false. change (pystring_eqb nz [95%N]) with false. cbv iota.
    rewrite LB, LZ, VB. split; [exact I|]. destruct (truth (less 0 b)) eqn:TB; [|exact I]. apply less_pos in TB.
    split; [auto|]. unfold defining. now rewrite LY.
  Qed.

  Lemma ex_for v b x : v nb = Some b -> v nx = Some x -> (0 < x)%Z -> D (ident nx) = true ->
    wp D [ex_fun] L (SFor nz (EVar nb) (ELt (ELit 0) (EVar nx)) [nx] (SAssign nx (ECall 0 (EVar nx)))) ex_q v.
  Proof.
    intros VB VX PX DX. cbn [wp]. unfold wpe at 1. change (pystring_eqb nb [95%N]) with false. cbv iota. rewrite LB, VB. split; [exact I|].
    cbv zeta. set (n := Z.max 0 b).
    assert (STEP : forall v' i err, v' nb = Some b -> iter_inv D L nz n i err v' -> (forall x, In x [nx] -> v' x <> None) ->
      wpe D [ex_fun] L v' (ELt (ELit 0) (EVar nx)) (fun r => (exists z, r = Some z /\ truth z = true) ->
        if err then ex_q v'
        else wpe D [ex_fun] L v' (ECall 0 (EVar nx)) (fun r => defining D L nx
          (next D L nz n i (set v' nx r) (fun i err v3 =>
            iter_inv D L nz n i err v3 /\ (forall x, In x [nx] -> v3 x <> None) /\
            wpe D [ex_fun] L v3 (ELt (ELit 0) (EVar nx)) (fun r => exists z, r = Some z /\ truth z = true)))))).
    { intros v' i err B' (I1 & I2 & I3 & I4) T'. specialize (T' nx (or_introl eq_refl)).
      destruct (v' nx) as [x'|] eqn:X'; [|congruence]. eapply ex_inv; [exact DX|exact X'|].
      intros (z & Z1 & Z2). inversion Z1; subst z. apply less_pos in Z2. rewrite LZ in I3. destruct err.
      - eapply ex_end; [exact B'|]. intros P. apply I3. unfold n. lia.
      - eapply ex_call; [exact DX|exact X'|].
        destruct (ex_value x') as (w & V & VP). specialize (VP Z2). rewrite V. unfold defining at 1. rewrite LX. intros _.
        unfold next. destruct (Z.ltb_spec i n).
        + unfold defining. rewrite LZ. intros DZ. split; [|now apply (ex_check _ w)].
          unfold iter_inv. rewrite LZ. split; [lia|]. split; [lia|]. split; [|discriminate]. intros _. split; [lia|].
          split; [cbn; f_equal; lia|exact DZ].
        + split; [|now apply (ex_check _ w)]. unfold iter_inv. rewrite LZ. split; [lia|]. split; [discriminate|].
          split; [|lia]. intros P. destruct (I3 P) as (J1 & J2 & J3). auto. }
    unfold next at 1. destruct (Z.ltb_spec 0 n).
    - unfold defining at 1. rewrite LZ. intros DZ. split.
      + split; [|now apply (ex_check _ x)]. unfold iter_inv. rewrite LZ. split; [lia|]. split; [lia|]. split; [|discriminate].
        intros _. split; [lia|]. split; [cbn; f_equal; lia|exact DZ].
      + intros v' i err SO. apply STEP. rewrite SO; [exact VB|]. cbn. intros [H0|[H0|[]]]; discriminate H0.
    - split.
      + split; [|now apply (ex_check _ x)]. unfold iter_inv. rewrite LZ. split; [lia|]. split; [discriminate|]. split; lia.
      + intros v' i err SO. apply STEP. rewrite SO; [exact VB|]. cbn. intros [H0|[H0|[]]]; discriminate H0.
  Qed.

  Lemma ex_wp v b : v nb = Some b -> wp D [ex_fun] L ex_body (fun _ => True) v.
  Proof.
    intros VB. unfold ex_body. cbn [wp]. fold ex_q. unfold wpe at 1. change (pystring_eqb nb [95%N]) with false. cbv iota.
    rewrite LB, VB. split; [exact I|].
    assert (R : forall x : Z, (0 < x)%Z -> D (ident nx) = true ->
      wp D [ex_fun] L (SWhile (ELt (EVar nx) (EVar nb)) (ELt (ELit 0) (EVar nx)) [nx] (SSeq (SAug nx (ELit 1)) (SAssign ny (EVar nx))))
        (wp D [ex_fun] L (SFor nz (EVar nb) (ELt (ELit 0) (EVar nx)) [nx] (SAssign nx (ECall 0 (EVar nx)))) ex_q) (set v nx (Some x))).
    { intros x PX DX. set (Q := wp D [ex_fun] L (SFor _ _ _ _ _) ex_q). cbn [wp]. split; [now apply (ex_check _ x)|].
      intros v1 S1 T1.
      assert (B1 : v1 nb = Some b). { rewrite (S1 nb); [exact VB|]. cbn. intros [H|[H|[]]]; discriminate H. }
      specialize (T1 nx (or_introl eq_refl)). destruct (v1 nx) as [x1|] eqn:X1; [|congruence].
      eapply ex_inv; [exact DX|exact X1|]. intros (z & Z1 & Z2). inversion Z1; subst z. apply less_pos in Z2.
      eapply ex_cond; [exact DX|exact X1|exact B1|]. destruct (truth (less x1 b)).
      - unfold wpe at 1. unfold defining at 1. rewrite LX. intros _. eapply ex_var; [exact DX|].
        unfold defining. rewrite LY. intros _. apply (ex_check _ (x1 + 1)%Z); [exact DX|reflexivity|lia].
      - unfold Q. eapply ex_for; [exact B1|exact X1|exact Z2|exact DX]. }
    destruct (truth b); unfold wpe at 1; unfold defining at 1; rewrite LX; intros DX.
    - apply R; [lia|exact DX].
    - apply R; [lia|exact DX].
  Qed.
End ExampleMethod.

Example C61_ex_method : method_ok [ex_fun] ex_method /\ plain ex_body /\ method_named [ex_fun] ex_method.
Proof.
  split; [|split].
  - intros D v A. specialize (A nb (or_introl eq_refl)). destruct (v nb) as [b|] eqn:VB; [|congruence].
    eapply ex_wp; try reflexivity. exact VB.
  - cbn. intuition discriminate.
  - intros x X. cbn in X.
    assert (x = nb \/ x = nx \/ x = ny \/ x = nz) as C by (intuition auto).
    split; [|split].
    + destruct C as [->|[->|[->| ->]]]; vm_compute; repeat constructor; congruence.
    + intros p y [<-|[]] Y. cbn in Y. assert (y = nw) as -> by (intuition auto).
      destruct C as [->|[->|[->| ->]]]; discriminate.
    + intros y Y E. exact E.
Qed.

(** Refuted: local variables of inlined methods are not checked.
      @Inline
      def n(a): if a: x = 1
                y = x
                return 1
      def m(b): z = n(b) *)
Theorem C61_inline_refuted : exists m, method_ok [] m /\ method_named [] m /\ ~ runs_fine [] m.
Proof.
  exists (Me [nb] (SInline nz (EVar nb) na (SSeq (SIf (EVar na) (SAssign nx (ELit 1)) SSkip) (SAssign ny (EVar nx))) (ELit 1)) (fun x => x)).
  split; [|split].
  - intros D v A. specialize (A nb (or_introl eq_refl)). cbn in A |- *. split; [exact I|]. intros u.
    split; [exact I|]. destruct (v nb) as [b|]; [|congruence]. destruct (truth b); cbn; auto.
  - intros x X. cbn in X. assert (x = nz \/ x = nb) as C by (intuition auto). split; [|split].
    + destruct C as [->| ->]; vm_compute; repeat constructor; congruence.
    + intros p y [].
    + intros y Y E. exact E.
  - intros R. set (s := set (fun _ => None) nb (Some 0%Z) : store).
    destruct (R s (OErr (set (fun _ => None) na (Some 0%Z)) nx)) as (s' & E).
    + intros x. unfold s. cbn [m_args]. split.
      * intros H. left. destruct (name_dec nb x) as [E|E]; [exact E|]. rewrite set_other in H; congruence.
      * intros [<-|[]]. rewrite set_same. discriminate.
    + eapply e_inline_body with (z := 0%Z); [reflexivity|]. eapply e_seq.
      * eapply e_if with (z := 0%Z); [reflexivity|]. apply e_skip.
      * apply e_assign_err. reflexivity.
    + discriminate.
Qed.
Print Assumptions C61_inline_refuted.

(** Refuted: so are reads of the variable _.
      def m(): y = _ ; _ = 1 *)
Theorem C61_wildcard_refuted : exists m, method_ok [] m /\ method_named [] m /\ ~ runs_fine [] m.
Proof.
  exists (Me [] (SSeq (SAssign ny (EVar underscore)) (SAssign underscore (ELit 1))) (fun x => x)).
  split; [|split].
  - intros D v A. cbn. intros r H. exact I.
  - intros x X. cbn in X. assert (x = ny \/ x = underscore) as C by (intuition auto). split; [|split].
    + destruct C as [->| ->]; vm_compute; repeat constructor; congruence.
    + intros p y [].
    + intros y Y E. exact E.
  - intros R. destruct (R (fun _ => None) (OErr (fun _ => None) underscore)) as (s' & E).
    + intros x. cbn. split; [congruence|contradiction].
    + apply e_seq_err, e_assign_err. reflexivity.
    + discriminate.
Qed.
Print Assumptions C61_wildcard_refuted.

(** Refuted: calling a pure function defines the variables of the caller that have the names
    of its local variables.
      @Pure
      def f(a): x = a
                return x
      def m(b): z = f(b)
                y = x
                x = 1 *)
Definition leak_fun : pfun := PF na [WAssign [] nx (EVar na)] (EVar nx).

Lemma leak_named : table_named [leak_fun].
Proof.
  split; [|exact I]. intros x X. cbn in X. assert (x = na \/ x = nx) as [-> | ->] by (intuition auto);
    (split; [vm_compute; repeat constructor; congruence|split; [discriminate|intros p y []]]).
Qed.

Lemma leak_ok : table_ok [leak_fun].
Proof. split; [|exact I]. intros D a. cbn. split; [exact I|]. intros H. split; [exact H|]. discriminate. Qed.

Theorem C61_leak_refuted :
  exists T m, table_ok T /\ table_named T /\ method_ok T m /\ plain (m_body m) /\ ~ runs_fine T m /\
    forall x, In x (names (m_body m)) -> latin1_name (m_sil m x) /\ m_sil m x = x.
Proof.
  exists [leak_fun].
  exists (Me [nb] (SSeq (SAssign nz (ECall 0 (EVar nb))) (SSeq (SAssign ny (EVar nx)) (SAssign nx (ELit 1)))) (fun x => x)).
  split; [exact leak_ok|]. split; [exact leak_named|]. split; [|split; [|split]].
  - intros D v A. specialize (A nb (or_introl eq_refl)). cbn in A |- *. split; [exact I|].
    destruct (v nb) as [b|]; [|congruence]. intros F. unfold defining. cbn. intros _.
    split; [apply F; left; reflexivity|]. intros _. intros _. exact I.
  - cbn. intuition discriminate.
  - intros R. set (s := set (fun _ => None) nb (Some 0%Z) : store).
    destruct (R s (OErr (set s nz (Some 0%Z)) nx)) as (s' & E).
    + intros x. unfold s. cbn [m_args]. split.
      * intros H. left. destruct (name_dec nb x) as [E|E]; [exact E|]. rewrite set_other in H; congruence.
      * intros [<-|[]]. rewrite set_same. discriminate.
    + eapply e_seq; [apply e_assign; reflexivity|]. apply e_seq_err, e_assign_err. reflexivity.
    + discriminate.
  - intros x X. cbn in X. split; [|reflexivity].
    assert (x = nz \/ x = nb \/ x = ny \/ x = nx) as C by (intuition auto).
    destruct C as [->|[->|[->| ->]]]; vm_compute; repeat constructor; congruence.
Qed.
Print Assumptions C61_leak_refuted.

(** Refuted: the same between pure functions.
      @Pure
      def g(a): if a: x = 1
                y = f(a)
                z = x
                return y *)
Theorem C61_leak_function_refuted :
  exists T f z, table_ok T /\ (forall p x, In p T -> In x (fun_names p) -> latin1_name x /\ x <> underscore) /\
    (forall w, pcall T f z <> PV w).
Proof.
  exists [PF na [WCond [] 0 (EVar na); WAssign [(0, true)] nx (ELit 1); WAssign [] ny (ECall 0 (EVar na)); WAssign [] nz (EVar nx)] (EVar ny); leak_fun].
  exists 1, 0%Z. split; [split; [|exact leak_ok]|split].
  - intros D a. cbn [wrun pf_wraps passes forallb wpe fun_loc pf_arg].
    unfold fun_env. cbn [pf_arg]. rewrite set_same. split; [exact I|]. cbn [fst snd].
    assert (K : forall v, v na = Some a -> wrun D [leak_fun] (PF na [WCond [] 0 (EVar na); WAssign [(0, true)] nx (ELit 1); WAssign [] ny (ECall 0 (EVar na)); WAssign [] nz (EVar nx)] (EVar ny)) v
      (set_cond (fun _ => false) 0 (truth a)) [WAssign [] ny (ECall 0 (EVar na)); WAssign [] nz (EVar nx)]).
    { intros v V. cbn. split; [exact I|]. rewrite V. intros F HY. split; [apply F; left; reflexivity|]. intros _. split; [exact HY|discriminate]. }
    unfold set_cond at 1. cbn [Nat.eqb Bool.eqb andb]. destruct (truth a) eqn:TA; cbn [Bool.eqb andb].
    + intros _. apply K. reflexivity.
    + apply K. reflexivity.
  - intros p x [<-|[<-|[]]] X; cbn in X.
    + assert (x = na \/ x = nx \/ x = ny \/ x = nz) as C by (intuition auto).
      destruct C as [->|[->|[->| ->]]]; (split; [vm_compute; repeat constructor; congruence|discriminate]).
    + assert (x = na \/ x = nx) as C by (intuition auto).
      destruct C as [->| ->]; (split; [vm_compute; repeat constructor; congruence|discriminate]).
  - intros w. vm_compute. discriminate.
Qed.
Print Assumptions C61_leak_function_refuted.
