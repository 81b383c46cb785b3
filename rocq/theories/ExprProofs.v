(** Proofs about the translation of expressions and assignments. *)
From Coq Require Import List ZArith Bool Arith Lia.
From Verif Require Import ExprSpec ExprModel.
Import ListNotations.

(** induction over expressions with operand lists *)
Section Ind.
  Variable P : expr -> Prop.
  Hypothesis Hconst : forall v, P (EConst v).
  Hypothesis Hvar : forall x, P (EVar x).
  Hypothesis Hfield : forall e f, P e -> P (EField e f).
  Hypothesis Hfun : forall f es, Forall P es -> P (EFun f es).
  Hypothesis Hcall : forall m es, Forall P es -> P (ECall m es).
  Hypothesis Htuple : forall es, Forall P es -> P (ETuple es).
  Hypothesis Hnot : forall e, P e -> P (ENot e).
  Hypothesis Hbool : forall b e es, P e -> Forall P es -> P (EBool b e es).
  Hypothesis Hif : forall c a b, P c -> P a -> P b -> P (EIf c a b).
  Hypothesis Hcmp : forall e rest, P e -> Forall (fun p => P (snd p)) rest -> P (ECmp e rest).
  Fixpoint expr_ind' (e : expr) : P e :=
    let go := fix go (es : list expr) : Forall P es :=
      match es with
      | [] => Forall_nil _
      | e :: es' => Forall_cons _ (expr_ind' e) (go es')
      end in
    match e with
    | EConst v => Hconst v
    | EVar x => Hvar x
    | EField e f => Hfield e f (expr_ind' e)
    | EFun f es => Hfun f es (go es)
    | ECall m es => Hcall m es (go es)
    | ETuple es => Htuple es (go es)
    | ENot e => Hnot e (expr_ind' e)
    | EBool b e es => Hbool b e es (expr_ind' e) (go es)
    | EIf c a b => Hif c a b (expr_ind' c) (expr_ind' a) (expr_ind' b)
    | ECmp e rest => Hcmp e rest (expr_ind' e)
        ((fix gop (es : list (nat * expr)) : Forall (fun p => P (snd p)) es :=
           match es with
           | [] => Forall_nil _
           | p :: es' => Forall_cons p
               (match p return P (snd p) with (o, e) => expr_ind' e end) (gop es')
           end) rest)
    end.
End Ind.

Lemma exec_app : forall E l s1 s2 tm h,
  exec E l (s1 ++ s2) tm h =
  match exec E l s1 tm h with
  | TOk tm' h' => exec E l s2 tm' h'
  | TExc x tm' h' => TExc x tm' h'
  end.
Proof.
  intros E l s1. unfold exec. induction s1 as [|s s1 IH]; intros; simpl; [reflexivity|].
  destruct (exec1 E l s tm h); [apply IH | reflexivity].
Qed.

(** ** Structural facts: fresh variables, statements, heap dependence *)

Definition loc_temps E l (t : texpr) (n n1 : nat) : Prop :=
  forall tm tm' h, (forall k, n <= k < n1 -> tm k = tm' k) ->
    teval E l tm h t = teval E l tm' h t.
Definition heap_free E l (t : texpr) : Prop :=
  forall tm h h', teval E l tm h t = teval E l tm h' t.

Definition struct E l (e : expr) : Prop :=
  forall tb n s t n1, translate E tb e n = (s, t, n1) ->
    n <= n1 /\ loc_temps E l t n n1 /\ (effectful e = false -> s = []) /\
    (reads E e = false -> heap_free E l t).

Lemma loc_mono : forall E l t n n1 m m1, loc_temps E l t n n1 -> m <= n -> n1 <= m1 ->
  loc_temps E l t m m1.
Proof. intros E l t n n1 m m1 H ? ? tm tm' h Hk. apply H. intros; apply Hk; lia. Qed.

Ltac locm H := refine (loc_mono _ _ _ _ _ _ _ H _ _); lia.

Lemma tr_list_struct : forall E l tb es, Forall (struct E l) es ->
  forall n ss ts n1, tr_list (translate E tb) es n = (ss, ts, n1) ->
  n <= n1 /\ Forall (fun t => loc_temps E l t n n1) ts /\
  (existsb effectful es = false -> concat ss = [] /\ forall s, In s ss -> s = []) /\
  (existsb (reads E) es = false -> Forall (heap_free E l) ts) /\
  length ss = length es /\ length ts = length es.
Proof.
  induction 1 as [|e es He Hes IH]; intros n ss ts n1 H; simpl in H.
  - inversion H; subst. repeat split; auto; intros s [].
  - destruct (translate E tb e n) as [[s t] k] eqn:T.
    destruct (tr_list (translate E tb) es k) as [[ss' ts'] k'] eqn:T'.
    inversion H; subst. apply He in T. destruct T as (L1 & A1 & B1 & C1).
    destruct (IH _ _ _ _ T') as (L2 & A2 & B2 & C2 & D1 & D2).
    split; [lia|]. split; [|split; [|split; [|split]]].
    + constructor; [locm A1|].
      eapply Forall_impl; [|exact A2]. intros a Ha. locm Ha.
    + simpl. intro Hf. apply orb_false_iff in Hf. destruct Hf as [F1 F2].
      destruct (B2 F2) as [B3 B4]. rewrite (B1 F1), B3. split; auto.
      intros x [<-|Hx]; auto.
    + simpl. intro Hf. apply orb_false_iff in Hf. destruct Hf as [F1 F2].
      constructor; auto.
    + simpl; lia.
    + simpl; lia.
Qed.

Lemma tr_plist_list : forall E tb rest n,
  tr_plist (translate E tb) rest n =
  let '(ss, ts, n1) := tr_list (translate E tb) (map snd rest) n in
  (ss, combine (map fst rest) ts, n1).
Proof.
  induction rest as [|[o e] rest IH]; intro n; simpl; [reflexivity|].
  destruct (translate E tb e n) as [[s t] k]. rewrite IH.
  destruct (tr_list (translate E tb) (map snd rest) k) as [[ss ts] k']. reflexivity.
Qed.

Lemma map_teval_temps : forall E l ts n n1 tm tm' h,
  Forall (fun t => loc_temps E l t n n1) ts ->
  (forall k, n <= k < n1 -> tm k = tm' k) ->
  map (teval E l tm h) ts = map (teval E l tm' h) ts.
Proof.
  intros. apply map_ext_in. intros t Ht. rewrite Forall_forall in H. apply (H t Ht); auto.
Qed.

Lemma map_teval_heap : forall E l ts tm h h',
  Forall (heap_free E l) ts -> map (teval E l tm h) ts = map (teval E l tm h') ts.
Proof.
  intros. apply map_ext_in. intros t Ht. rewrite Forall_forall in H. apply (H t Ht); auto.
Qed.

Lemma join_bool_temps : forall E l n n1 is_and ts,
  Forall (fun t => loc_temps E l t n n1) ts -> loc_temps E l (join_bool is_and ts) n n1.
Proof.
  induction ts as [|t ts IH]; intro H; [intros ? ? ? ?; reflexivity|].
  inversion H; subst. intros tm tm' h Hk. destruct ts as [|u ts].
  - simpl. rewrite (H2 tm tm' h Hk). reflexivity.
  - change (join_bool is_and (t :: u :: ts)) with
      (if is_and then TAnd (TBool t) (join_bool is_and (u :: ts))
       else TOr (TBool t) (join_bool is_and (u :: ts))).
    pose proof (IH H3 tm tm' h Hk) as I.
    destruct is_and; cbn [teval]; rewrite (H2 tm tm' h Hk), I; reflexivity.
Qed.

Lemma join_val_temps : forall E l n n1 is_and ts,
  Forall (fun t => loc_temps E l t n n1) ts -> loc_temps E l (join_val is_and ts) n n1.
Proof.
  induction ts as [|t ts IH]; intro H; [intros ? ? ? ?; reflexivity|].
  inversion H; subst. intros tm tm' h Hk. destruct ts as [|u ts].
  - simpl. rewrite (H2 tm tm' h Hk). reflexivity.
  - change (join_val is_and (t :: u :: ts)) with
      (if is_and then TCond (TBool t) (join_val is_and (u :: ts)) t
       else TCond (TBool t) t (join_val is_and (u :: ts))).
    pose proof (IH H3 tm tm' h Hk) as I.
    destruct is_and; cbn [teval]; rewrite (H2 tm tm' h Hk), I; reflexivity.
Qed.

Lemma join_bool_heap : forall E l is_and ts,
  Forall (heap_free E l) ts -> heap_free E l (join_bool is_and ts).
Proof.
  induction ts as [|t ts IH]; intro H; [intros ? ? ?; reflexivity|].
  inversion H; subst. intros tm h h'. destruct ts as [|u ts].
  - simpl. rewrite (H2 tm h h'). reflexivity.
  - change (join_bool is_and (t :: u :: ts)) with
      (if is_and then TAnd (TBool t) (join_bool is_and (u :: ts))
       else TOr (TBool t) (join_bool is_and (u :: ts))).
    pose proof (IH H3 tm h h') as I.
    destruct is_and; cbn [teval]; rewrite (H2 tm h h'), I; reflexivity.
Qed.

Lemma join_val_heap : forall E l is_and ts,
  Forall (heap_free E l) ts -> heap_free E l (join_val is_and ts).
Proof.
  induction ts as [|t ts IH]; intro H; [intros ? ? ?; reflexivity|].
  inversion H; subst. intros tm h h'. destruct ts as [|u ts].
  - simpl. rewrite (H2 tm h h'). reflexivity.
  - change (join_val is_and (t :: u :: ts)) with
      (if is_and then TCond (TBool t) (join_val is_and (u :: ts)) t
       else TCond (TBool t) t (join_val is_and (u :: ts))).
    pose proof (IH H3 tm h h') as I.
    destruct is_and; cbn [teval]; rewrite (H2 tm h h'), I; reflexivity.
Qed.

Lemma join_cmp_temps : forall E l n n1 rest acc p,
  loc_temps E l p n n1 -> Forall (fun q => loc_temps E l (snd q) n n1) rest ->
  (forall a, acc = Some a -> loc_temps E l a n n1) ->
  loc_temps E l (join_cmp acc p rest) n n1.
Proof.
  induction rest as [|[o q] rest IH]; intros acc p Hp Hr Ha; simpl.
  - destruct acc; [auto|]. intros ? ? ? ?; reflexivity.
  - inversion Hr; subst. simpl in H1. apply IH; auto.
    intros a Hs. inversion Hs; subst. intros tm tm' h Hk.
    destruct acc; simpl; rewrite (Hp tm tm' h Hk), (H1 tm tm' h Hk);
      [rewrite (Ha _ eq_refl tm tm' h Hk)|]; reflexivity.
Qed.

Lemma join_cmp_heap : forall E l rest acc p, env_ok E ->
  heap_free E l p -> Forall (fun q => heap_free E l (snd q)) rest ->
  (forall q, In q rest -> cmp_indep E (fst q) = true) ->
  (forall a, acc = Some a -> heap_free E l a) ->
  heap_free E l (join_cmp acc p rest).
Proof.
  induction rest as [|[o q] rest IH]; intros acc p HE Hp Hr Hi Ha; simpl.
  - destruct acc; [auto|]. intros ? ? ?; reflexivity.
  - inversion Hr; subst. simpl in H1. apply IH; auto.
    { intros; apply Hi; right; auto. }
    intros a Hs. inversion Hs; subst. intros tm h h'.
    assert (Ho : cmp_indep E o = true) by (apply (Hi (o, q)); left; auto).
    destruct acc; simpl; rewrite (Hp tm h h'), (H1 tm h h');
      rewrite (proj2 HE o h h' _ _ Ho); [rewrite (Ha _ eq_refl tm h h')|]; reflexivity.
Qed.

Lemma guard_nil : forall is_and sss ps pre,
  (forall s, In s sss -> s = []) -> guard_stmts is_and pre sss ps = [].
Proof.
  induction sss as [|s sss IH]; intros ps pre H; [reflexivity|].
  destruct ps as [|p ps]; [reflexivity|].
  simpl. rewrite (H s (or_introl eq_refl)). simpl. apply IH. intros; apply H; right; auto.
Qed.

Lemma existsb_map_snd : forall A (f : expr -> bool) (rest : list (A * expr)),
  existsb f (map snd rest) = existsb (fun p => f (snd p)) rest.
Proof. induction rest; simpl; congruence. Qed.

Lemma Forall_map_snd : forall (P : expr -> Prop) (rest : list (nat * expr)),
  Forall (fun p => P (snd p)) rest -> Forall P (map snd rest).
Proof. induction 1; simpl; constructor; auto. Qed.

Lemma Forall_combine_snd : forall (P : texpr -> Prop) (os : list nat) ts,
  Forall P ts -> Forall (fun q => P (snd q)) (combine os ts).
Proof.
  induction os; intros ts H; simpl; [constructor|].
  destruct H; constructor; auto.
Qed.

Lemma translate_struct : forall E l, env_ok E -> forall e, struct E l e.
Proof.
  intros E l HE. induction e using expr_ind'; intros tb n s t n1 T; simpl in T.
  - inversion T; subst. repeat split; auto; intros ? ? ?; reflexivity.
  - inversion T; subst. repeat split; auto; intros ? ? ?; reflexivity.
  - destruct (translate E false e n) as [[s' t'] k] eqn:T1. inversion T; subst.
    apply IHe in T1. destruct T1 as (L & A & B & C). split; [auto|].
    split; [|split; [exact B | discriminate]].
    intros tm tm' h Hk. simpl. rewrite (A tm tm' h Hk). reflexivity.
  - destruct (tr_list (translate E false) es n) as [[ss ts] k] eqn:T1. inversion T; subst.
    destruct (tr_list_struct E l false es H _ _ _ _ T1) as (L & A & B & C & D).
    split; [auto|]. split; [|split].
    + intros tm tm' h Hk. simpl. rewrite (map_teval_temps E l ts n n1 tm tm' h A Hk). reflexivity.
    + simpl. intro Hf. exact (proj1 (B Hf)).
    + simpl. intro Hf. apply orb_false_iff in Hf. destruct Hf as [F1 F2].
      apply negb_false_iff in F1. intros tm h h'. simpl.
      rewrite (map_teval_heap E l ts tm h h' (C F2)). apply (proj1 HE); auto.
  - destruct (tr_list (translate E false) es n) as [[ss ts] k] eqn:T1. inversion T; subst.
    destruct (tr_list_struct E l false es H _ _ _ _ T1) as (L & A & B & C & D).
    split; [lia|]. split; [|split; [discriminate|]].
    + intros tm tm' h Hk. simpl. apply Hk. lia.
    + intros _ tm h h'. reflexivity.
  - destruct (tr_list (translate E false) es n) as [[ss ts] k] eqn:T1. inversion T; subst.
    destruct (tr_list_struct E l false es H _ _ _ _ T1) as (L & A & B & C & D).
    split; [auto|]. split; [|split].
    + intros tm tm' h Hk. simpl. rewrite (map_teval_temps E l ts n n1 tm tm' h A Hk). reflexivity.
    + simpl. intro Hf. exact (proj1 (B Hf)).
    + simpl. intro Hf. intros tm h h'. simpl.
      rewrite (map_teval_heap E l ts tm h h' (C Hf)). reflexivity.
  - destruct (translate E true e n) as [[s' t'] k] eqn:T1. inversion T; subst.
    apply IHe in T1. destruct T1 as (L & A & B & C). split; [auto|].
    split; [|split; [exact B|]].
    + intros tm tm' h Hk. simpl. rewrite (A tm tm' h Hk). reflexivity.
    + intro Hr. intros tm h h'. simpl. rewrite (C Hr tm h h'). reflexivity.
  - destruct (translate E true e n) as [[s' t'] k] eqn:T1.
    destruct (tr_list (translate E true) es k) as [[ss ts] k'] eqn:T2. inversion T; subst.
    apply IHe in T1. destruct T1 as (L1 & A1 & B1 & C1).
    destruct (tr_list_struct E l true es H _ _ _ _ T2) as (L & A & B & C & D1 & D2).
    assert (AA : Forall (fun u => loc_temps E l u n n1) (t' :: ts)).
    { constructor; [locm A1|].
      eapply Forall_impl; [|exact A]. intros a Ha. locm Ha. }
    split; [lia|]. split; [|split].
    + destruct (isb E e && forallb (isb E) es);
        [apply (join_bool_temps E l n n1 b (t' :: ts) AA) | apply (join_val_temps E l n n1 b (t' :: ts) AA)].
    + simpl. intro Hf. apply orb_false_iff in Hf. destruct Hf as [F1 F2].
      destruct (B F2) as [_ B2]. rewrite (B1 F1). simpl. apply guard_nil; auto.
    + simpl. intro Hf. apply orb_false_iff in Hf. destruct Hf as [F1 F2].
      assert (HH : Forall (heap_free E l) (t' :: ts)) by (constructor; auto).
      destruct (isb E e && forallb (isb E) es);
        [apply (join_bool_heap E l b (t' :: ts) HH) | apply (join_val_heap E l b (t' :: ts) HH)].
  - destruct (translate E true e1 n) as [[sc tc] k] eqn:T1.
    destruct (translate E tb e2 k) as [[sa ta] k2] eqn:T2.
    destruct (translate E tb e3 k2) as [[sb tb'] k3] eqn:T3. inversion T; subst.
    apply IHe1 in T1. apply IHe2 in T2. apply IHe3 in T3.
    destruct T1 as (L1 & A1 & B1 & C1). destruct T2 as (L2 & A2 & B2 & C2).
    destruct T3 as (L3 & A3 & B3 & C3).
    apply (loc_mono _ _ _ _ _ n n1) in A1; [|lia|lia].
    apply (loc_mono _ _ _ _ _ n n1) in A2; [|lia|lia].
    apply (loc_mono _ _ _ _ _ n n1) in A3; [|lia|lia].
    split; [lia|]. split; [|split].
    + intros tm tm' h Hk. simpl.
      rewrite (A1 tm tm' h Hk). destruct tb; simpl; rewrite (A2 tm tm' h Hk), (A3 tm tm' h Hk); reflexivity.
    + simpl. intro Hf. apply orb_false_iff in Hf. destruct Hf as [Hf F3].
      apply orb_false_iff in Hf. destruct Hf as [F1 F2].
      rewrite (B1 F1), (B2 F2), (B3 F3). reflexivity.
    + simpl. intro Hf. apply orb_false_iff in Hf. destruct Hf as [Hf F3].
      apply orb_false_iff in Hf. destruct Hf as [F1 F2].
      intros tm h h'. simpl. rewrite (C1 F1 tm h h').
      destruct tb; simpl; rewrite (C2 F2 tm h h'), (C3 F3 tm h h'); reflexivity.
  - destruct (translate E false e n) as [[s' t'] k] eqn:T1.
    rewrite tr_plist_list in T.
    destruct (tr_list (translate E false) (map snd rest) k) as [[ss ts] k'] eqn:T2.
    inversion T; subst.
    apply IHe in T1. destruct T1 as (L1 & A1 & B1 & C1).
    destruct (tr_list_struct E l false _ (Forall_map_snd _ _ H) _ _ _ _ T2)
      as (L & A & B & C & D1 & D2).
    split; [lia|]. split; [|split].
    + apply join_cmp_temps.
      * locm A1.
      * apply (Forall_combine_snd (fun u => loc_temps E l u n n1)).
        eapply Forall_impl; [|exact A]. intros a Ha. locm Ha.
      * discriminate.
    + simpl. intro Hf. apply orb_false_iff in Hf. destruct Hf as [F1 F2].
      rewrite <- existsb_map_snd in F2. destruct (B F2) as [B2 _].
      rewrite (B1 F1), B2. reflexivity.
    + simpl. intro Hf. apply orb_false_iff in Hf. destruct Hf as [F1 F2].
      assert (F3 : existsb (reads E) (map snd rest) = false).
      { rewrite existsb_map_snd. clear -F2. induction rest as [|p rest IH]; [reflexivity|].
        simpl in *. apply orb_false_iff in F2. destruct F2 as [F2 F3].
        apply orb_false_iff in F2. rewrite (proj2 F2), IH; auto. }
      apply join_cmp_heap; auto.
      * apply (Forall_combine_snd (heap_free E l)). auto.
      * intros q Hq. destruct q as [o u]. simpl. apply in_combine_l in Hq.
        clear -F2 Hq. induction rest as [|p rest IH]; [destruct Hq|].
        simpl in *. apply orb_false_iff in F2. destruct F2 as [F2 F3].
        apply orb_false_iff in F2. destruct F2 as [F2 _]. apply negb_false_iff in F2.
        destruct Hq as [<-|Hq]; auto.
      * discriminate.
Qed.

Lemma struct_list : forall E l, env_ok E -> forall tb es n ss ts n1,
  tr_list (translate E tb) es n = (ss, ts, n1) ->
  n <= n1 /\ Forall (fun t => loc_temps E l t n n1) ts /\
  (existsb effectful es = false -> concat ss = [] /\ forall s, In s ss -> s = []) /\
  (existsb (reads E) es = false -> Forall (heap_free E l) ts) /\
  length ss = length es /\ length ts = length es.
Proof.
  intros E l HE tb es n ss ts n1 T. apply (tr_list_struct E l tb es) in T; [exact T|].
  apply Forall_forall. intros e0 _. apply translate_struct; exact HE.
Qed.

(** ** Simulation *)

Section Sim.
Variable E : env.
Variable l : locals.
Variable Inv : heap -> Prop.
Hypothesis HE : env_ok E.
Hypothesis HT : sound_typing E l Inv.

Definition agree (tm tm' : temps) (n : nat) : Prop := forall k, k < n -> tm' k = tm k.

Definition sim (e : expr) : Prop :=
  forall tb n s t n1, translate E tb e n = (s, t, n1) -> ordered E e = true ->
  forall tm h, Inv h ->
  match py_eval E l e h with
  | Ok v h' => exists tm', exec E l s tm h = TOk tm' h' /\ agree tm tm' n /\
      truthy (teval E l tm' h' t) = truthy v /\
      (keeps_value E tb e = true -> teval E l tm' h' t = v)
  | Exc x h' => exists tm', exec E l s tm h = TExc x tm' h'
  end.

Lemma agree_trans : forall a b c n m, agree a b n -> agree b c m -> n <= m -> agree a c n.
Proof. intros a b c n m H1 H2 Hl k Hk. rewrite (H2 k), (H1 k); auto; lia. Qed.

Lemma agree_refl : forall a n, agree a a n.
Proof. intros a n k Hk. reflexivity. Qed.

(** the operand values survive the statements of the later operands *)
Lemma survive : forall e n t n1 s tb tm tm' h h' s',
  translate E tb e n = (s, t, n1) ->
  agree tm tm' n1 ->
  (s' = true -> reads E e = false) -> (s' = false -> h' = h) ->
  teval E l tm' h' t = teval E l tm h t.
Proof.
  intros e n t n1 s tb tm tm' h h' s' T A R S0.
  destruct (translate_struct E l HE e _ _ _ _ _ T) as (L & B & C & D).
  rewrite (B tm' tm h').
  - destruct s'; [apply D; auto | rewrite S0; auto].
  - intros k Hk. apply A. lia.
Qed.

Lemma sim_list : forall es, Forall sim es ->
  forall n ss ts n1, tr_list (translate E false) es n = (ss, ts, n1) ->
  forallb (ordered E) es = true -> forallb (keeps_value E false) es = true ->
  pairs_ok E es = true ->
  forall tm h, Inv h ->
  match ev_list (py_eval E l) es h with
  | Ok vs h' => exists tm', exec E l (concat ss) tm h = TOk tm' h' /\ agree tm tm' n /\
      map (teval E l tm' h') ts = vs /\ Inv h'
  | Exc x h' => exists tm', exec E l (concat ss) tm h = TExc x tm' h'
  end.
Proof.
  induction 1 as [|e es He Hes IH]; intros n ss ts n1 T O K P tm h Hi; simpl in T.
  - inversion T; subst. simpl. exists tm. repeat split; auto.
  - destruct (translate E false e n) as [[s t] k] eqn:T1.
    destruct (tr_list (translate E false) es k) as [[ss' ts'] k'] eqn:T2.
    inversion T; subst. simpl in O, K, P.
    apply andb_true_iff in O. destruct O as [O1 O2].
    apply andb_true_iff in K. destruct K as [K1 K2].
    apply andb_true_iff in P. destruct P as [P1 P2].
    pose proof (He false n s t k T1 O1 tm h Hi) as S1.
    simpl ev_list. destruct (py_eval E l e h) as [v h1|x h1] eqn:Pe; simpl.
    + destruct S1 as (tm1 & X1 & Ag1 & _ & V1). specialize (V1 K1).
      destruct (HT e h v h1 Hi Pe) as [Hi1 _].
      pose proof (IH k ss' ts' n1 T2 O2 K2 P2 tm1 h1 Hi1) as S2.
      rewrite exec_app, X1.
      destruct (ev_list (py_eval E l) es h1) as [vs h2|x h2] eqn:Pes; simpl.
      * destruct S2 as (tm2 & X2 & Ag2 & V2 & Hi2). exists tm2.
        destruct (translate_struct E l HE e _ _ _ _ _ T1) as (L1 & _).
        split; [exact X2|]. split; [eapply agree_trans; eauto|]. split; [|exact Hi2].
        f_equal; [|exact V2]. rewrite <- V1.
        apply (survive e n t k s false tm1 tm2 h1 h2 (existsb effectful es) T1 Ag2).
        -- intro Ef. rewrite Ef in P1. simpl in P1. apply negb_true_iff in P1. exact P1.
        -- intro Ef.
           destruct (struct_list E l HE false es _ _ _ _ T2) as (_ & _ & B & _).
           destruct (B Ef) as [B1 _]. rewrite B1 in X2. inversion X2. reflexivity.
      * destruct S2 as (tm2 & X2). exists tm2. exact X2.
    + destruct S1 as (tm1 & X1). exists tm1. rewrite exec_app, X1. reflexivity.
Qed.

(** *** [and]/[or] *)

Definition goes_on (is_and : bool) (tm : temps) (h : heap) (q : texpr) : Prop :=
  truthy (teval E l tm h q) = is_and.

Lemma join_cons_bool : forall is_and p q ps,
  join_bool is_and (p :: q :: ps) =
  if is_and then TAnd (TBool p) (join_bool is_and (q :: ps))
  else TOr (TBool p) (join_bool is_and (q :: ps)).
Proof. reflexivity. Qed.

Lemma join_cons_val : forall is_and p q ps,
  join_val is_and (p :: q :: ps) =
  if is_and then TCond (TBool p) (join_val is_and (q :: ps)) p
  else TCond (TBool p) p (join_val is_and (q :: ps)).
Proof. reflexivity. Qed.

Lemma join_bool_last : forall is_and pre p tm h,
  Forall (goes_on is_and tm h) pre ->
  teval E l tm h (join_bool is_and (pre ++ [p])) = VBool (truthy (teval E l tm h p)).
Proof.
  induction pre as [|q pre IH]; intros p tm h H; [reflexivity|].
  inversion H as [|? ? G H']; subst. unfold goes_on in G.
  assert (R : exists r rs, pre ++ [p] = r :: rs) by (destruct pre; simpl; eauto).
  destruct R as (r & rs & R). simpl app. specialize (IH p tm h H').
  rewrite R in *. rewrite join_cons_bool.
  destruct is_and; cbn [teval]; rewrite IH, G; reflexivity.
Qed.

Lemma join_bool_stop : forall is_and pre p ps tm h,
  Forall (goes_on is_and tm h) pre -> truthy (teval E l tm h p) = negb is_and ->
  teval E l tm h (join_bool is_and (pre ++ p :: ps)) = VBool (negb is_and).
Proof.
  induction pre as [|q pre IH]; intros p ps tm h H Hp.
  - simpl app. destruct ps as [|r ps]; [simpl; rewrite Hp; reflexivity|].
    rewrite join_cons_bool. destruct is_and; cbn [teval]; rewrite Hp; reflexivity.
  - inversion H as [|? ? G H']; subst. unfold goes_on in G.
    assert (R : exists r rs, pre ++ p :: ps = r :: rs) by (destruct pre; simpl; eauto).
    destruct R as (r & rs & R). simpl app. specialize (IH p ps tm h H' Hp).
    rewrite R in *. rewrite join_cons_bool.
    destruct is_and; cbn [teval]; rewrite IH, G; reflexivity.
Qed.

Lemma join_val_last : forall is_and pre p tm h,
  Forall (goes_on is_and tm h) pre ->
  teval E l tm h (join_val is_and (pre ++ [p])) = teval E l tm h p.
Proof.
  induction pre as [|q pre IH]; intros p tm h H; [reflexivity|].
  inversion H as [|? ? G H']; subst. unfold goes_on in G.
  assert (R : exists r rs, pre ++ [p] = r :: rs) by (destruct pre; simpl; eauto).
  destruct R as (r & rs & R). simpl app. specialize (IH p tm h H').
  rewrite R in *. rewrite join_cons_val.
  destruct is_and; cbn [teval]; rewrite G; simpl; exact IH.
Qed.

Lemma join_val_stop : forall is_and pre p ps tm h,
  Forall (goes_on is_and tm h) pre -> truthy (teval E l tm h p) = negb is_and ->
  teval E l tm h (join_val is_and (pre ++ p :: ps)) = teval E l tm h p.
Proof.
  induction pre as [|q pre IH]; intros p ps tm h H Hp.
  - simpl app. destruct ps as [|r ps]; [reflexivity|].
    rewrite join_cons_val. destruct is_and; cbn [teval]; rewrite Hp; reflexivity.
  - inversion H as [|? ? G H']; subst. unfold goes_on in G.
    assert (R : exists r rs, pre ++ p :: ps = r :: rs) by (destruct pre; simpl; eauto).
    destruct R as (r & rs & R). simpl app. specialize (IH p ps tm h H' Hp).
    rewrite R in *. rewrite join_cons_val.
    destruct is_and; cbn [teval]; rewrite G; simpl; exact IH.
Qed.

(** once an operand has stopped the chain, nothing more is executed *)
Lemma guard_skip : forall is_and sss ts pre p ps tm h,
  Forall (goes_on is_and tm h) pre -> truthy (teval E l tm h p) = negb is_and ->
  exec E l (guard_stmts is_and (pre ++ p :: ps) sss ts) tm h = TOk tm h.
Proof.
  induction sss as [|s sss IH]; intros ts pre p ps tm h H Hp; [reflexivity|].
  destruct ts as [|t ts]; [reflexivity|].
  simpl guard_stmts. rewrite exec_app.
  assert (X : exec E l (match s with [] => [] | _ :: _ =>
      [SIf (if is_and then join_bool is_and (pre ++ p :: ps)
            else TNot (join_bool is_and (pre ++ p :: ps))) s []] end) tm h = TOk tm h).
  { destruct s as [|s0 s]; [reflexivity|].
    unfold exec. cbn [exec_seq exec1].
    assert (C : truthy (teval E l tm h (if is_and then join_bool is_and (pre ++ p :: ps)
            else TNot (join_bool is_and (pre ++ p :: ps)))) = false).
    { destruct is_and; cbn [teval]; rewrite join_bool_stop; auto. }
    rewrite C. reflexivity. }
  rewrite X. rewrite <- app_assoc. simpl app. apply IH; auto.
Qed.

Definition stays (es : list expr) (n : nat) (q : texpr) : Prop :=
  (forall tm tm' h, (forall k, k < n -> tm' k = tm k) -> teval E l tm' h q = teval E l tm h q) /\
  (existsb effectful es = true -> heap_free E l q).

Lemma sim_bool : forall is_and es, Forall sim es ->
  forall n ss ts n1, tr_list (translate E true) es n = (ss, ts, n1) ->
  forallb (ordered E) es = true -> pairs_ok E es = true ->
  forall pre p v tm h, Inv h ->
  Forall (goes_on is_and tm h) pre ->
  Forall (stays es n) (pre ++ [p]) ->
  truthy (teval E l tm h p) = truthy v ->
  match ev_bool (py_eval E l) is_and v es h with
  | Ok v' h' => exists tm', exec E l (guard_stmts is_and (pre ++ [p]) ss ts) tm h = TOk tm' h' /\
      agree tm tm' n /\
      truthy (teval E l tm' h' (join_bool is_and (pre ++ p :: ts))) = truthy v' /\
      truthy (teval E l tm' h' (join_val is_and (pre ++ p :: ts))) = truthy v' /\
      (teval E l tm h p = v -> forallb (keeps_value E true) es = true ->
       teval E l tm' h' (join_val is_and (pre ++ p :: ts)) = v')
  | Exc x h' => exists tm', exec E l (guard_stmts is_and (pre ++ [p]) ss ts) tm h = TExc x tm' h'
  end.
Proof.
  intros is_and es H. induction H as [|e es He Hes IH];
    intros n ss ts n1 T O P pre p v tm h Hi G St Tv; simpl in T.
  - inversion T; subst. simpl. exists tm. split; [reflexivity|]. split; [apply agree_refl|].
    rewrite join_bool_last, join_val_last by auto. auto.
  - destruct (translate E true e n) as [[s t] k] eqn:T1.
    destruct (tr_list (translate E true) es k) as [[ss' ts'] k'] eqn:T2.
    inversion T; subst. simpl in O, P.
    apply andb_true_iff in O. destruct O as [O1 O2].
    apply andb_true_iff in P. destruct P as [P1 P2].
    destruct (translate_struct E l HE e _ _ _ _ _ T1) as (L1 & B1 & C1 & D1).
    simpl ev_bool. destruct (Bool.eqb (truthy v) is_and) eqn:Go.
    + apply eqb_prop in Go.
      assert (Gp : goes_on is_and tm h p) by (unfold goes_on; congruence).
      assert (GA : Forall (goes_on is_and tm h) (pre ++ [p])).
      { apply Forall_app; split; auto. }
      (* the guard is true, so the operand's statements are executed *)
      assert (X : exec E l (match s with [] => [] | _ :: _ =>
          [SIf (if is_and then join_bool is_and (pre ++ [p])
                else TNot (join_bool is_and (pre ++ [p]))) s []] end) tm h = exec E l s tm h).
      { destruct s as [|s0 s]; [reflexivity|].
        unfold exec. cbn [exec_seq exec1].
        assert (C : truthy (teval E l tm h (if is_and then join_bool is_and (pre ++ [p])
            else TNot (join_bool is_and (pre ++ [p])))) = true).
        { unfold goes_on in Gp.
          destruct is_and; cbn [teval]; rewrite join_bool_last by auto; rewrite Gp; reflexivity. }
        rewrite C.
        destruct (exec_seq (exec1 E l) (s0 :: s) tm h) eqn:Y; cbn [exec_seq] in Y;
          rewrite Y; reflexivity. }
      simpl guard_stmts. rewrite exec_app, X.
      pose proof (He true n s t k T1 O1 tm h Hi) as S1.
      destruct (py_eval E l e h) as [v1 h1|x h1] eqn:Pe; cbn [bind].
      * destruct S1 as (tm1 & X1 & Ag1 & V1 & V1').
        rewrite X1. destruct (HT e h v1 h1 Hi Pe) as [Hi1 _].
        assert (Keep : forall q, stays (e :: es) n q ->
                  teval E l tm1 h1 q = teval E l tm h q).
        { intros q [Q1 Q2]. rewrite (Q1 tm tm1 h1); [|exact Ag1].
          destruct (effectful e) eqn:Ef.
          - apply Q2. simpl. rewrite Ef. reflexivity.
          - rewrite (C1 eq_refl) in X1. inversion X1. reflexivity. }
        assert (G1 : Forall (goes_on is_and tm1 h1) (pre ++ [p])).
        { rewrite Forall_forall in *. intros q Hq. unfold goes_on. rewrite Keep; [|apply St; auto].
          apply GA; auto. }
        assert (St1 : Forall (stays es k) ((pre ++ [p]) ++ [t])).
        { apply Forall_app; split.
          - rewrite Forall_forall in *. intros q Hq. destruct (St q Hq) as [Q1 Q2]. split.
            + intros ? ? ? Hk. apply Q1. intros; apply Hk; lia.
            + intro Ef. apply Q2. simpl. rewrite Ef, orb_true_r. reflexivity.
          - constructor; [|constructor]. split.
            + intros ? ? ? Hk. apply B1. intros; apply Hk; lia.
            + intro Ef. apply D1. rewrite Ef in P1. simpl in P1.
              apply negb_true_iff in P1. exact P1. }
        pose proof (IH k ss' ts' n1 T2 O2 P2 (pre ++ [p]) t v1 tm1 h1 Hi1 G1 St1 V1) as S2.
        destruct (ev_bool (py_eval E l) is_and v1 es h1) as [v' h'|x h'] eqn:Pb.
        -- destruct S2 as (tm2 & X2 & Ag2 & W1 & W2 & W3).
           exists tm2. rewrite <- !app_assoc in *. simpl app in *.
           split; [exact X2|]. split; [eapply agree_trans; eauto|].
           split; [exact W1|]. split; [exact W2|].
           intros _ K. simpl in K. apply andb_true_iff in K. destruct K as [K1 K2].
           apply W3; auto.
        -- destruct S2 as (tm2 & X2). exists tm2. rewrite <- !app_assoc in *. exact X2.
      * destruct S1 as (tm1 & X1). exists tm1. rewrite X1. reflexivity.
    + apply eqb_false_iff in Go.
      assert (Hp : truthy (teval E l tm h p) = negb is_and).
      { rewrite Tv. destruct (truthy v), is_and; simpl; congruence. }
      exists tm. rewrite guard_skip by auto.
      split; [reflexivity|]. split; [apply agree_refl|].
      rewrite join_bool_stop, join_val_stop by auto.
      split; [simpl; rewrite <- Tv; auto|]. split; auto.
Qed.

(** *** Expressions without calls *)

Lemma pure_total : forall e, effectful e = false -> forall h, exists v, py_eval E l e h = Ok v h.
Proof.
  assert (LL : forall es, Forall (fun e => effectful e = false ->
      forall h, exists v, py_eval E l e h = Ok v h) es -> existsb effectful es = false ->
      forall h, exists vs, ev_list (py_eval E l) es h = Ok vs h).
  { induction 1 as [|e es He Hes IH]; intros Hf h; [exists []; reflexivity|].
    simpl in Hf. apply orb_false_iff in Hf. destruct Hf as [F1 F2].
    destruct (He F1 h) as [v Hv]. destruct (IH F2 h) as [vs Hvs].
    exists (v :: vs). simpl. rewrite Hv. simpl. rewrite Hvs. reflexivity. }
  assert (LB : forall a es, Forall (fun e => effectful e = false ->
      forall h, exists v, py_eval E l e h = Ok v h) es -> existsb effectful es = false ->
      forall v h, exists w, ev_bool (py_eval E l) a v es h = Ok w h).
  { intros a es H. induction H as [|e es He Hes IH]; intros Hf v h; [eexists; reflexivity|].
    simpl in Hf. apply orb_false_iff in Hf. destruct Hf as [F1 F2].
    simpl. destruct (Bool.eqb (truthy v) a); [|eexists; reflexivity].
    destruct (He F1 h) as [w Hw]. rewrite Hw. simpl. apply IH; auto. }
  assert (LC : forall rest, Forall (fun p => effectful (snd p) = false ->
      forall h, exists v, py_eval E l (snd p) h = Ok v h) rest ->
      existsb (fun p : nat * expr => effectful (snd p)) rest = false ->
      forall v h, exists w, ev_cmp (py_eval E l) (cmp_sem E) v rest h = Ok w h).
  { intros rest H. induction H as [|[o e] es He Hes IH]; intros Hf v h; [eexists; reflexivity|].
    simpl in Hf. apply orb_false_iff in Hf. destruct Hf as [F1 F2].
    simpl. simpl in He. destruct (He F1 h) as [w Hw]. rewrite Hw. simpl.
    destruct (cmp_sem E o h v w); [apply IH; auto | eexists; reflexivity]. }
  induction e using expr_ind'; intros Hf h; simpl in Hf; simpl py_eval.
  - eexists; reflexivity.
  - eexists; reflexivity.
  - destruct (IHe Hf h) as [v Hv]. rewrite Hv. eexists; reflexivity.
  - destruct (LL es H Hf h) as [v Hv]. rewrite Hv. eexists; reflexivity.
  - discriminate.
  - destruct (LL es H Hf h) as [v Hv]. rewrite Hv. eexists; reflexivity.
  - destruct (IHe Hf h) as [v Hv]. rewrite Hv. eexists; reflexivity.
  - apply orb_false_iff in Hf. destruct Hf as [F1 F2].
    destruct (IHe F1 h) as [v Hv]. rewrite Hv. simpl. apply LB; auto.
  - apply orb_false_iff in Hf. destruct Hf as [Hf F3].
    apply orb_false_iff in Hf. destruct Hf as [F1 F2].
    destruct (IHe1 F1 h) as [v Hv]. rewrite Hv. simpl. destruct (truthy v); auto.
  - apply orb_false_iff in Hf. destruct Hf as [F1 F2].
    destruct (IHe F1 h) as [v Hv]. rewrite Hv. simpl. apply LC; auto.
Qed.

Lemma ev_list_pure : forall es h, existsb effectful es = false ->
  exists vs, ev_list (py_eval E l) es h = Ok vs h /\ length vs = length es.
Proof.
  induction es as [|e es IH]; intros h Hf; [exists []; auto|].
  simpl in Hf. apply orb_false_iff in Hf. destruct Hf as [F1 F2].
  destruct (pure_total e F1 h) as [v Hv]. destruct (IH h F2) as (vs & Hvs & Hl).
  exists (v :: vs). simpl. rewrite Hv. simpl. rewrite Hvs. simpl. auto.
Qed.

(** *** Comparison chains *)

(** the truth value of a chain over values that are all known *)
Fixpoint chain (h : heap) (v : val) (os : list nat) (vs : list val) : bool :=
  match os, vs with
  | o :: os', w :: vs' => cmp_sem E o h v w && chain h w os' vs'
  | _, _ => true
  end.

Lemma join_cmp_chain : forall tm h os ts acc p,
  length os = length ts ->
  (acc <> None \/ os <> []) ->
  teval E l tm h (join_cmp acc p (combine os ts)) =
  VBool ((match acc with Some a => truthy (teval E l tm h a) | None => true end) &&
         chain h (teval E l tm h p) os (map (teval E l tm h) ts)) \/
  (os = [] /\ teval E l tm h (join_cmp acc p (combine os ts)) =
     match acc with Some a => teval E l tm h a | None => VBool true end).
Proof.
  induction os as [|o os IH]; intros ts acc p Hl Hn.
  - right. split; [reflexivity|]. destruct acc; reflexivity.
  - left. destruct ts as [|t ts]; [discriminate|]. simpl in Hl.
    simpl combine. cbn [join_cmp].
    destruct (IH ts (Some match acc with Some a => TAnd a (TCmp o p t) | None => TCmp o p t end) t)
      as [X|[X1 X2]]; [lia | left; discriminate | |].
    + rewrite X. f_equal. simpl chain. destruct acc; simpl truthy; cbn [teval truthy].
      * rewrite <- !andb_assoc. reflexivity.
      * reflexivity.
    + subst os. rewrite X2. destruct ts; [|discriminate]. simpl. rewrite andb_true_r.
      destruct acc; reflexivity.
Qed.

Lemma ev_cmp_pure : forall rest v h, existsb (fun p : nat * expr => effectful (snd p)) rest = false ->
  forall vs, ev_list (py_eval E l) (map snd rest) h = Ok vs h ->
  ev_cmp (py_eval E l) (cmp_sem E) v rest h = Ok (VBool (chain h v (map fst rest) vs)) h.
Proof.
  induction rest as [|[o e] rest IH]; intros v h Hf vs Hvs; [reflexivity|].
  simpl in Hf. apply orb_false_iff in Hf. destruct Hf as [F1 F2].
  simpl in Hvs. destruct (pure_total e F1 h) as [w Hw]. rewrite Hw in Hvs. simpl in Hvs.
  rewrite <- existsb_map_snd in F2.
  destruct (ev_list_pure (map snd rest) h F2) as (ws & Hws & _). rewrite Hws in Hvs.
  simpl in Hvs. inversion Hvs; subst. simpl. rewrite Hw. simpl.
  destruct (cmp_sem E o h v w) eqn:C; simpl; [|reflexivity].
  apply IH; auto. rewrite existsb_map_snd in F2. exact F2.
Qed.

Lemma ordered_list : forall es, forallb (ordered E) es && forallb (keeps_value E false) es
  && pairs_ok E es = true ->
  forallb (ordered E) es = true /\ forallb (keeps_value E false) es = true /\ pairs_ok E es = true.
Proof.
  intros es H. apply andb_true_iff in H. destruct H as [H H3]. apply andb_true_iff in H.
  destruct H. auto.
Qed.

Lemma forallb_map_snd : forall (f : expr -> bool) (rest : list (nat * expr)),
  forallb (fun p => f (snd p)) rest = true -> forallb f (map snd rest) = true.
Proof. induction rest; simpl; intro H; auto. apply andb_true_iff in H. destruct H. rewrite H, IHrest; auto. Qed.

Lemma ev_cmp_cons : forall v o e rest h,
  ev_cmp (py_eval E l) (cmp_sem E) v ((o, e) :: rest) h =
  bind (py_eval E l e h) (fun v' h' =>
    if cmp_sem E o h' v v' then ev_cmp (py_eval E l) (cmp_sem E) v' rest h'
    else Ok (VBool false) h').
Proof. reflexivity. Qed.

Lemma teval_cond : forall tm h c a b,
  teval E l tm h (TCond c a b) =
  if truthy (teval E l tm h c) then teval E l tm h a else teval E l tm h b.
Proof. reflexivity. Qed.

Lemma translate_sim : forall e, sim e.
Proof.
  induction e using expr_ind'; intros tb n s t n1 T O tm h Hi.
  - inversion T; subst. exists tm. repeat split; auto.
  - inversion T; subst. exists tm. repeat split; auto.
  - simpl in T. destruct (translate E false e n) as [[s' t'] k] eqn:T1. inversion T; subst.
    simpl in O. apply andb_true_iff in O. destruct O as [O1 O2].
    pose proof (IHe false n s t' n1 T1 O1 tm h Hi) as S1. simpl py_eval.
    destruct (py_eval E l e h) as [v h'|x h']; simpl; [|exact S1].
    destruct S1 as (tm' & X & Ag & _ & V). specialize (V O2). exists tm'.
    rewrite V. repeat split; auto.
  - simpl in T. destruct (tr_list (translate E false) es n) as [[ss ts] k] eqn:T1.
    inversion T; subst. apply ordered_list in O. destruct O as (O1 & O2 & O3).
    pose proof (sim_list es H n ss ts n1 T1 O1 O2 O3 tm h Hi) as S1. simpl py_eval.
    destruct (ev_list (py_eval E l) es h) as [vs h'|x h']; simpl; [|exact S1].
    destruct S1 as (tm' & X & Ag & V & _). exists tm'. rewrite V. repeat split; auto.
  - simpl in T. destruct (tr_list (translate E false) es n) as [[ss ts] k] eqn:T1.
    inversion T; subst. apply ordered_list in O. destruct O as (O1 & O2 & O3).
    pose proof (sim_list es H n ss ts k T1 O1 O2 O3 tm h Hi) as S1. simpl py_eval.
    rewrite exec_app.
    destruct (ev_list (py_eval E l) es h) as [vs h'|x h']; simpl.
    + destruct S1 as (tm' & X & Ag & V & _). rewrite X.
      unfold exec. cbn [exec_seq exec1]. rewrite V.
      assert (Ln : n <= k).
      { destruct (struct_list E l HE false es _ _ _ _ T1) as (L & _). exact L. }
      destruct (call_sem E m h' vs) as [h'' [v|x]].
      * exists (upd_temp tm' k v). split; [reflexivity|]. split.
        { intros j Hj. unfold upd_temp. destruct (Nat.eqb_spec k j); [lia|]. apply Ag; auto. }
        unfold upd_temp. cbn [teval]. rewrite Nat.eqb_refl. auto.
      * exists tm'. reflexivity.
    + destruct S1 as (tm' & X). exists tm'. rewrite X. reflexivity.
  - simpl in T. destruct (tr_list (translate E false) es n) as [[ss ts] k] eqn:T1.
    inversion T; subst. apply ordered_list in O. destruct O as (O1 & O2 & O3).
    pose proof (sim_list es H n ss ts n1 T1 O1 O2 O3 tm h Hi) as S1. simpl py_eval.
    destruct (ev_list (py_eval E l) es h) as [vs h'|x h']; cbn [bind]; [|exact S1].
    destruct S1 as (tm' & X & Ag & V & _). exists tm'. cbn [teval]. rewrite V. repeat split; auto.
  - simpl in T. destruct (translate E true e n) as [[s' t'] k] eqn:T1. inversion T; subst.
    simpl in O.
    pose proof (IHe true n s t' n1 T1 O tm h Hi) as S1. simpl py_eval.
    destruct (py_eval E l e h) as [v h'|x h']; cbn [bind]; [|exact S1].
    destruct S1 as (tm' & X & Ag & V & _). exists tm'. cbn [teval truthy]. rewrite V. repeat split; auto.
  - simpl in T. destruct (translate E true e n) as [[s' t'] k] eqn:T1.
    destruct (tr_list (translate E true) es k) as [[ss ts] k'] eqn:T2.
    inversion T; subst. simpl in O. apply andb_true_iff in O. destruct O as [O1 O3].
    apply andb_true_iff in O1. destruct O1 as [O1 O2].
    apply andb_true_iff in O3. destruct O3 as [O3 O4].
    destruct (translate_struct E l HE e _ _ _ _ _ T1) as (L1 & B1 & C1 & D1).
    pose proof (IHe true n s' t' k T1 O1 tm h Hi) as S1. simpl py_eval. rewrite exec_app.
    destruct (py_eval E l e h) as [v h1|x h1] eqn:Pe; cbn [bind].
    + destruct S1 as (tm1 & X1 & Ag1 & V1 & V1'). rewrite X1.
      destruct (HT e h v h1 Hi Pe) as [Hi1 Tb].
      assert (St : Forall (stays es k) ([] ++ [t'])).
      { constructor; [|constructor]. split.
        - intros ? ? ? Hk. apply B1. intros; apply Hk; lia.
        - intro Ef. apply D1. rewrite Ef in O3. simpl in O3. apply negb_true_iff in O3. exact O3. }
      pose proof (sim_bool b es H k ss ts n1 T2 O2 O4 [] t' v tm1 h1 Hi1 (Forall_nil _) St V1) as S2.
      destruct (ev_bool (py_eval E l) b v es h1) as [v' h'|x h'] eqn:Pb.
      * destruct S2 as (tm2 & X2 & Ag2 & W1 & W2 & W3). simpl app in *.
        exists tm2. split; [exact X2|]. split; [eapply agree_trans; eauto|].
        destruct (isb E e && forallb (isb E) es) eqn:AB.
        -- split; [exact W1|]. intros _.
           (* all operands are booleans: so is the result *)
           apply andb_true_iff in AB. destruct AB as [AB1 AB2].
           assert (Hv' : exists c, v' = VBool c).
           { clear -Pb Tb AB1 AB2 HT Hi1. revert v h1 Pb Tb Hi1 AB2.
             induction es as [|e' es IH]; intros v h1 Pb Tb Hi1 AB2; simpl in Pb.
             - inversion Pb; subst. auto.
             - simpl in AB2. apply andb_true_iff in AB2. destruct AB2 as [A1 A2].
               destruct (Bool.eqb (truthy v) b).
               + destruct (py_eval E l e' h1) as [w h2|] eqn:Pe'; simpl in Pb; [|discriminate].
                 destruct (HT e' h1 w h2 Hi1 Pe') as [Hi2 Tw].
                 apply (IH w h2 Pb); auto.
               + inversion Pb; subst. auto. }
           destruct Hv' as [c Hc]. subst v'. simpl truthy in W1.
           assert (R : exists d, teval E l tm2 h' (join_bool b (t' :: ts)) = VBool d).
           { destruct ts as [|u ts]; [eexists; reflexivity|]. rewrite join_cons_bool.
             destruct b; eexists; reflexivity. }
           destruct R as [d R]. change (truthy (teval E l tm2 h' (join_bool b (t' :: ts))) = c) in W1. rewrite R in W1. simpl in W1. subst d. exact R.
        -- split; [exact W2|]. simpl keeps_value. rewrite AB. simpl.
           intro K. apply andb_true_iff in K. destruct K as [K1 K2]. apply W3; auto.
      * destruct S2 as (tm2 & X2). exists tm2. exact X2.
    + destruct S1 as (tm1 & X1). exists tm1. rewrite X1. reflexivity.
  - simpl in T. destruct (translate E true e1 n) as [[sc tc] k] eqn:T1.
    destruct (translate E tb e2 k) as [[sa ta] k2] eqn:T2.
    destruct (translate E tb e3 k2) as [[sb tb'] k3] eqn:T3. inversion T; subst. clear T.
    simpl in O. apply andb_true_iff in O. destruct O as [O O4].
    apply andb_true_iff in O. destruct O as [O O3]. apply andb_true_iff in O. destruct O as [O1 O2].
    destruct (translate_struct E l HE e1 _ _ _ _ _ T1) as (L1 & B1 & C1 & D1).
    destruct (translate_struct E l HE e2 _ _ _ _ _ T2) as (L2 & B2 & C2 & D2).
    destruct (translate_struct E l HE e3 _ _ _ _ _ T3) as (L3 & B3 & C3 & D3).
    pose proof (IHe1 true n sc tc k T1 O1 tm h Hi) as S1. simpl py_eval. rewrite exec_app.
    destruct (py_eval E l e1 h) as [v h1|x h1] eqn:Pe; cbn [bind].
    2:{ destruct S1 as (tm1 & X1). exists tm1. rewrite X1. reflexivity. }
    destruct S1 as (tm1 & X1 & Ag1 & V1 & _). rewrite X1.
    destruct (HT e1 h v h1 Hi Pe) as [Hi1 _].
    assert (X : exec E l (match sa with [] => match sb with [] => [] | _ :: _ => [SIf (TBool tc) sa sb] end
                          | _ :: _ => [SIf (TBool tc) sa sb] end) tm1 h1
                = if truthy v then exec E l sa tm1 h1 else exec E l sb tm1 h1).
    { assert (Y : exec E l [SIf (TBool tc) sa sb] tm1 h1 =
                  if truthy v then exec E l sa tm1 h1 else exec E l sb tm1 h1).
      { unfold exec. cbn [exec_seq exec1 conv teval truthy]. rewrite V1.
        destruct (truthy v); [destruct (exec_seq (exec1 E l) sa tm1 h1) | destruct (exec_seq (exec1 E l) sb tm1 h1)]; reflexivity. }
      destruct sa as [|? ?]; [destruct sb as [|? ?]|]; try exact Y. destruct (truthy v); reflexivity. }
    rewrite X.
    assert (Cond : forall tm2 h2, agree tm1 tm2 k ->
       (effectful e2 || effectful e3 = false -> h2 = h1) ->
       truthy (teval E l tm2 h2 (TBool tc)) = truthy v).
    { intros tm2 h2 Ag Eh. cbn [conv teval truthy]. rewrite <- V1. f_equal.
      apply (survive e1 n tc k sc true tm1 tm2 h1 h2 (effectful e2 || effectful e3) T1 Ag).
      - intro Ef. rewrite Ef in O4. simpl in O4. apply negb_true_iff in O4. exact O4.
      - exact Eh. }
    destruct (truthy v) eqn:Tv.
    + pose proof (IHe2 tb k sa ta k2 T2 O2 tm1 h1 Hi1) as S2.
      destruct (py_eval E l e2 h1) as [w h2|x h2] eqn:Pa; [|exact S2].
      destruct S2 as (tm2 & X2 & Ag2 & V2 & V2'). exists tm2.
      split; [exact X2|]. split; [eapply agree_trans; eauto|].
      rewrite teval_cond, Cond; auto.
      2:{ intro Ef. apply orb_false_iff in Ef. destruct Ef as [Ef _]. rewrite (C2 Ef) in X2.
          inversion X2; reflexivity. }
      destruct tb; cbn [conv teval].
      * split; [simpl; exact V2|]. simpl keeps_value. intro K. apply andb_true_iff in K.
        destruct K as [K1 _]. destruct (HT e2 h1 w h2 Hi1 Pa) as [_ Tb].
        destruct (Tb K1) as [c ->]. rewrite V2. reflexivity.
      * split; [exact V2|]. simpl keeps_value. intro K. apply andb_true_iff in K. apply V2'. tauto.
    + pose proof (IHe3 tb k2 sb tb' n1 T3 O3 tm1 h1 Hi1) as S2.
      destruct (py_eval E l e3 h1) as [w h2|x h2] eqn:Pa; [|exact S2].
      destruct S2 as (tm2 & X2 & Ag2 & V2 & V2'). exists tm2.
      split; [exact X2|]. split; [eapply agree_trans; eauto; lia|].
      rewrite teval_cond, Cond.
      2:{ intros j Hj. apply Ag2. lia. }
      2:{ intro Ef. apply orb_false_iff in Ef. destruct Ef as [_ Ef]. rewrite (C3 Ef) in X2.
          inversion X2; reflexivity. }
      destruct tb; cbn [conv teval].
      * split; [simpl; exact V2|]. simpl keeps_value. intro K. apply andb_true_iff in K.
        destruct K as [_ K1]. destruct (HT e3 h1 w h2 Hi1 Pa) as [_ Tb].
        destruct (Tb K1) as [c ->]. rewrite V2. reflexivity.
      * split; [exact V2|]. simpl keeps_value. intro K. apply andb_true_iff in K. apply V2'. tauto.
  - (* comparison chains: all operands are evaluated like an argument list *)
    simpl in T. destruct (translate E false e n) as [[s' t'] k] eqn:T1.
    rewrite tr_plist_list in T.
    destruct (tr_list (translate E false) (map snd rest) k) as [[ss ts] k'] eqn:T2.
    inversion T; subst. clear T.
    simpl in O. apply andb_true_iff in O. destruct O as [O O6].
    apply andb_true_iff in O. destruct O as [O O5]. apply andb_true_iff in O. destruct O as [O O4].
    apply andb_true_iff in O. destruct O as [O O3]. apply andb_true_iff in O. destruct O as [O1 O2].
    apply forallb_map_snd in O2. apply forallb_map_snd in O4.
    pose proof (sim_list (e :: map snd rest) (Forall_cons _ IHe (Forall_map_snd _ _ H))
                  n (s' :: ss) (t' :: ts) n1) as SL.
    simpl tr_list in SL. rewrite T1, T2 in SL.
    specialize (SL eq_refl). simpl forallb in SL. rewrite O1, O2, O3, O4 in SL.
    specialize (SL eq_refl eq_refl O5 tm h Hi). simpl concat in SL.
    destruct (struct_list E l HE false (map snd rest) _ _ _ _ T2) as (_ & _ & _ & _ & _ & Len).
    simpl py_eval. simpl ev_list in SL.
    destruct (py_eval E l e h) as [v h1|x h1] eqn:Pe; cbn [bind] in *; [|exact SL].
    destruct rest as [|[o e1] rest].
    + (* no comparison at all *)
      simpl in SL. destruct SL as (tm' & X & Ag & V & _). exists tm'. simpl.
      destruct ts; [|discriminate]. simpl. split; [exact X|]. repeat split; auto.
    + simpl map in *. simpl ev_list in SL. rewrite ev_cmp_cons. simpl in O6. apply negb_true_iff in O6.
      destruct (py_eval E l e1 h1) as [v1 h2|x h2] eqn:Pe1; cbn [bind] in *; [|exact SL].
      assert (O6' := O6). rewrite <- existsb_map_snd in O6'.
      destruct (ev_list_pure (map snd rest) h2 O6') as (vs & Hvs & Hl).
      rewrite Hvs in SL. cbn [bind] in SL.
      destruct SL as (tm' & X & Ag & V & Hi').
      destruct ts as [|t1 ts]; [discriminate|].
      assert (Lt : length ts = length (map fst rest)).
      { simpl in Len. inversion Len. rewrite !map_length in *. auto. }
      simpl map in V. inversion V as [[E1 E2 E3]]. rewrite E1, E2 in V.
      assert (R : teval E l tm' h2 (join_cmp None t' (combine (o :: map fst rest) (t1 :: ts)))
                  = VBool (chain h2 v (o :: map fst rest) (v1 :: vs))).
      { destruct (join_cmp_chain tm' h2 (o :: map fst rest) (t1 :: ts) None t')
          as [Y|[Y _]]; [simpl; lia | right; discriminate | | discriminate].
        rewrite Y. simpl map. rewrite E1, E2, E3. reflexivity. }
      assert (PP : (if cmp_sem E o h2 v v1 then ev_cmp (py_eval E l) (cmp_sem E) v1 rest h2
                    else Ok (VBool false) h2)
                   = Ok (VBool (chain h2 v (o :: map fst rest) (v1 :: vs))) h2).
      { simpl chain. destruct (cmp_sem E o h2 v v1); [|reflexivity].
        rewrite (ev_cmp_pure rest v1 h2 O6 vs Hvs). reflexivity. }
      rewrite E1, E2, PP.
      exists tm'. split; [exact X|]. split; [exact Ag|]. simpl fst. rewrite R. auto.
Qed.

End Sim.

(** ** Assignments *)

Section TgtInd.
  Variable P : target -> Prop.
  Hypothesis Hvar : forall x, P (TgtVar x).
  Hypothesis Hfield : forall e f, P (TgtField e f).
  Hypothesis Htuple : forall ts, Forall P ts -> P (TgtTuple ts).
  Hypothesis Hstar : forall x, P (TgtStar x).
  Fixpoint target_ind' (t : target) : P t :=
    match t with
    | TgtVar x => Hvar x
    | TgtField e f => Hfield e f
    | TgtTuple ts => Htuple ts
        ((fix go (ts : list target) : Forall P ts :=
            match ts with
            | [] => Forall_nil _
            | t :: ts' => Forall_cons _ (target_ind' t) (go ts')
            end) ts)
    | TgtStar x => Hstar x
    end.
End TgtInd.

Section Assign.
Variable E : env.
Variable tm : temps.

Lemma path_eval : forall e, is_path e = true -> forall l h,
  py_eval E l e h = Ok (teval E l tm h (snd (fst (translate E false e 0)))) h.
Proof.
  intros e. induction e; intros H l h; try discriminate; simpl in *; auto.
  rewrite (IHe H l h). simpl.
  destruct (translate E false e 0) as [[s t] k]. reflexivity.
Qed.

(** Only the targets are written. *)
Lemma py_assign_frame : forall t v st,
  (forall x, ~ In x (assigned t) -> a_loc (py_assign E t v st) x = a_loc st x) /\
  (assigns_field t = false -> a_heap (py_assign E t v st) = a_heap st).
Proof.
  induction t using target_ind'; intros v st.
  - simpl. destruct (a_ok st); simpl; [|auto]. split; auto. intros y Hy. unfold upd_loc.
    destruct (Nat.eqb_spec x y); auto. exfalso; apply Hy; auto.
  - simpl. destruct (a_ok st); simpl; [|auto]. split; [|discriminate]. intros x _.
    destruct (py_eval E (a_loc st) e (a_heap st)) as [[]|]; reflexivity.
  - simpl. destruct (a_ok st) eqn:Hok; [|auto].
    destruct v; simpl; auto. destruct (unpack ts vs) as [ws|]; simpl; auto.
    clear Hok vs. revert ws st. induction H as [|t ts Ht Hts IH]; intros ws st; simpl; auto.
    destruct ws as [|w ws]; simpl; auto.
    destruct (IH ws (py_assign E t w st)) as [I1 I2]. destruct (Ht w st) as [J1 J2]. split.
    + intros x Hx. rewrite I1, J1; auto; intro F; apply Hx; apply in_or_app; auto.
    + intro Hf. apply orb_false_iff in Hf. destruct Hf as [F1 F2]. rewrite I2, J2; auto.
  - simpl. destruct (a_ok st); simpl; [|auto]. split; auto. intros y Hy. unfold upd_loc.
    destruct (Nat.eqb_spec x y); auto. exfalso; apply Hy; auto.
Qed.

Lemma py_assign_notok : forall t v st, a_ok st = false -> py_assign E t v st = st.
Proof. intros t v st H. destruct t; simpl; rewrite H; reflexivity. Qed.

Lemma aexec_notok : forall ss st, a_ok st = false -> aexec E tm ss st = st.
Proof.
  unfold aexec. induction ss as [|s ss IH]; intros st H; [reflexivity|]. simpl.
  assert (X : aexec1 E tm s st = st) by (unfold aexec1; rewrite H; reflexivity).
  rewrite X. apply IH; auto.
Qed.

Lemma aexec_app : forall s1 s2 st, aexec E tm (s1 ++ s2) st = aexec E tm s2 (aexec E tm s1 st).
Proof. intros. unfold aexec. apply fold_left_app. Qed.

(** [rhs] has the value [v] in every state that differs from (l0, h0) only in
    the variables [xs] and, if [fs], in the heap. *)
Definition holds_value (l0 : locals) (h0 : heap) (xs : list nat) (fs : bool)
  (rhs : texpr) (v : val) : Prop :=
  forall l h, (forall x, ~ In x xs -> l x = l0 x) -> (fs = false -> h = h0) ->
    teval E l tm h rhs = v.

Definition reach (l0 : locals) (h0 : heap) (xs : list nat) (fs : bool) (st : astate) : Prop :=
  (forall x, ~ In x xs -> a_loc st x = l0 x) /\ (fs = false -> a_heap st = h0).

(** the value handed to target number [k] of [total] *)
Definition elem (vs : list val) (total k : nat) (t : target) : val :=
  if is_star t then VSeq (skipn k (firstn (length vs - (total - k - 1)) vs))
  else nth k vs VNone.

Fixpoint elems (vs : list val) (total k : nat) (ts : list target) : list val :=
  match ts with
  | [] => []
  | t :: ts' => elem vs total k t :: elems vs total (S k) ts'
  end.

Lemma elems_plain : forall vs total ts k, existsb is_star ts = false ->
  k + length ts = length vs -> elems vs total k ts = skipn k vs.
Proof.
  induction ts as [|t ts IH]; intros k Hs Hl; simpl in *.
  - symmetry. apply skipn_all2. lia.
  - apply orb_false_iff in Hs. destruct Hs as [H1 H2]. unfold elem. rewrite H1.
    rewrite (IH (S k) H2) by lia.
    clear -Hl. revert k Hl. induction vs as [|v vs IHv]; intros k Hl; simpl in Hl; [lia|].
    destruct k; [reflexivity|]. simpl. apply IHv. lia.
Qed.

Lemma star_at_none : forall ts, star_at ts = None -> existsb is_star ts = false.
Proof.
  induction ts as [|t ts IH]; simpl; [auto|]. destruct (is_star t); simpl; [discriminate|].
  destruct (star_at ts); simpl; [discriminate|auto].
Qed.

Lemma star_at_some : forall ts i, star_at ts = Some i -> existsb is_star ts = true.
Proof.
  induction ts as [|t ts IH]; simpl; [discriminate|]. intros i. destruct (is_star t); simpl; auto.
  destruct (star_at ts); simpl; [|discriminate]. intros _. eapply IH; eauto.
Qed.

Lemma filter_none : forall ts, length (filter is_star ts) = 0 -> existsb is_star ts = false.
Proof. induction ts as [|t ts IH]; simpl; auto. destruct (is_star t); simpl; [discriminate|auto]. Qed.

Lemma elems_star : forall total vs ts k i, star_at ts = Some i ->
  length (filter is_star ts) <= 1 -> k + length ts = total -> total - 1 <= length vs ->
  (S i < length ts -> length vs = total) ->
  elems vs total k ts =
  firstn i (skipn k vs) ++
  VSeq (firstn (length vs - (length ts - 1 - i) - (k + i)) (skipn (k + i) vs)) ::
  skipn (length vs - (length ts - 1 - i)) vs.
Proof.
  induction ts as [|t ts IH]; intros k i Hs Hf Hk Hl Hx; [discriminate|].
  simpl in Hs, Hf, Hk. destruct (is_star t) eqn:St.
  - inversion Hs; subst i. simpl firstn. simpl app. rewrite Nat.add_0_r.
    cbn [elems]. unfold elem. rewrite St. simpl in Hf.
    assert (N : existsb is_star ts = false) by (apply filter_none; lia).
    f_equal.
    + f_equal. simpl length. rewrite firstn_skipn_comm.
      replace (total - k - 1) with (length ts) by lia.
      f_equal. f_equal. replace (S (length ts) - 1 - 0) with (length ts) by lia. lia.
    + simpl length in *. replace (S (length ts) - 1 - 0) with (length ts) by lia.
      destruct ts as [|u ts].
      * simpl. rewrite Nat.sub_0_r. symmetry. apply skipn_all.
      * rewrite (elems_plain vs total (u :: ts) (S k) N) by (simpl in *; lia).
        f_equal. simpl in *. lia.
  - destruct (star_at ts) as [j|] eqn:Sj; simpl in Hs; [|discriminate]. inversion Hs; subst i.
    cbn [elems]. unfold elem. rewrite St.
    assert (Lj : j < length ts).
    { clear -Sj. revert j Sj. induction ts as [|t ts IH]; simpl; [discriminate|]. intros j.
      destruct (is_star t); [intro X; inversion X; lia|].
      destruct (star_at ts); simpl; [|discriminate]. intro X; inversion X; subst.
      specialize (IH n eq_refl). lia. }
    simpl length in Hk, Hx, Hl.
    rewrite (IH (S k) j eq_refl) by (try lia; intro; apply Hx; lia).
    simpl length. replace (S (length ts) - 1 - S j) with (length ts - 1 - j) by lia.
    replace (k + S j) with (S k + j) by lia.
    assert (Sk : skipn k vs = nth k vs VNone :: skipn (S k) vs).
    { assert (Hlt : k < length vs) by lia. clear -Hlt. revert k Hlt.
      induction vs as [|v vs IHv]; intros k Hl; simpl in Hl; [lia|].
      destruct k; [reflexivity|]. simpl. apply IHv. lia. }
    rewrite Sk. reflexivity.
Qed.

Lemma unpack_elems : forall ts vs ws, length (filter is_star ts) <= 1 ->
  unpack ts vs = Some ws ->
  match star_at ts with Some i => S i < length ts -> length vs = length ts | None => True end ->
  ws = elems vs (length ts) 0 ts.
Proof.
  intros ts vs ws Hf Hu Hx. unfold unpack in Hu. destruct (star_at ts) as [i|] eqn:St.
  - destruct (Nat.leb_spec (length ts - 1) (length vs)); [|discriminate]. inversion Hu; subst.
    rewrite (elems_star (length ts) vs ts 0 i St Hf) by (auto; lia). simpl.
    reflexivity.
  - destruct (Nat.eqb_spec (length vs) (length ts)); [|discriminate]. inversion Hu; subst.
    symmetry. rewrite elems_plain; [reflexivity | apply star_at_none; auto | simpl; lia].
Qed.

Lemma assign_target : forall t, wf_target t = true ->
  forall l0 h0 xs fs rhs v st, a_ok st = true ->
  (forall x, In x (assigned t) -> In x xs) ->
  (assigns_field t = true -> fs = true) ->
  (single [t] = true \/ holds_value l0 h0 xs fs rhs v) -> reach l0 h0 xs fs st ->
  teval E (a_loc st) tm (a_heap st) rhs = v ->
  star_fits t v ->
  aexec E tm (tr_target E t rhs) st = py_assign E t v st.
Proof.
  induction t using target_ind'; intros W l0 h0 xs fs rhs v st Hok Hxs Hfs Hv Hr He Hsf.
  - unfold aexec. simpl. unfold aexec1. rewrite Hok, He. reflexivity.
  - simpl in W. unfold aexec. simpl. unfold aexec1. rewrite Hok.
    rewrite (path_eval e W). rewrite He. reflexivity.
  - destruct Hv as [Hv|Hv]; [discriminate|].
    simpl in W. apply andb_true_iff in W. destruct W as [W1 W2]. apply Nat.leb_le in W2.
    cbn [tr_target py_assign]. rewrite Hok.
    assert (Hnone : forall (k : nat) (ex : bool) (tl : list astmt),
      match v with VSeq vs => (if ex then Nat.eqb k (length vs) else Nat.leb k (length vs)) = false | _ => True end ->
      aexec E tm (AAssertLen k ex rhs :: tl) st =
      {| a_loc := a_loc st; a_heap := a_heap st; a_ok := false |}).
    { intros k ex tl Hc. unfold aexec. simpl fold_left.
      assert (X : aexec1 E tm (AAssertLen k ex rhs) st =
                  {| a_loc := a_loc st; a_heap := a_heap st; a_ok := false |}).
      { unfold aexec1. rewrite Hok, He. destruct v; try reflexivity. rewrite Hc. reflexivity. }
      rewrite X. apply (aexec_notok tl). reflexivity. }
    assert (Hsome : forall (k : nat) (ex : bool) (tl : list astmt) vs, v = VSeq vs ->
      (if ex then Nat.eqb k (length vs) else Nat.leb k (length vs)) = true ->
      aexec E tm (AAssertLen k ex rhs :: tl) st = aexec E tm tl st).
    { intros k ex tl vs -> Hc. unfold aexec. simpl fold_left. f_equal.
      unfold aexec1. rewrite Hok, He, Hc. reflexivity. }
    destruct v as [z|b| |r|vs];
      try (destruct (existsb is_star ts); apply Hnone; exact I).
    destruct (unpack ts vs) as [ws|] eqn:U.
    + assert (Hlen : aexec E tm ((if existsb is_star ts then AAssertLen (length ts - 1) false rhs
                                else AAssertLen (length ts) true rhs)
                                :: tgt_list (tr_target E) (length ts) ts 0 rhs) st
                     = aexec E tm (tgt_list (tr_target E) (length ts) ts 0 rhs) st).
      { unfold unpack in U. destruct (star_at ts) as [i|] eqn:St.
        - rewrite (star_at_some ts i St).
          destruct (Nat.leb (length ts - 1) (length vs)) eqn:Le; [|discriminate].
          eapply Hsome; [reflexivity | exact Le].
        - rewrite (star_at_none ts St).
          destruct (Nat.eqb (length vs) (length ts)) eqn:Le; [|discriminate].
          eapply Hsome; [reflexivity |]. rewrite Nat.eqb_sym. exact Le. }
      rewrite Hlen. clear Hlen Hnone Hsome.
      simpl in Hsf. rewrite U in Hsf. destruct Hsf as [Hsf1 Hsf2].
      rewrite (unpack_elems ts vs ws W2 U Hsf1) in *.
      simpl in Hxs, Hfs. clear W2 U Hsf1 He ws.
      (* the elements one by one *)
      remember (length ts) as total eqn:Ht. clear Ht.
      assert (Val : forall st, reach l0 h0 xs fs st ->
                teval E (a_loc st) tm (a_heap st) rhs = VSeq vs).
      { intros st' [R1 R2]. apply Hv; auto. }
      clear Hok. revert st Hr Hsf2. generalize 0 as k. revert W1 Hxs Hfs.
      induction H as [|t ts Ht Hts IH]; intros W1 Hxs Hfs k st Hr Hsf2; [reflexivity|].
      simpl in W1. apply andb_true_iff in W1. destruct W1 as [W0 W1].
      simpl in Hsf2. destruct Hsf2 as [F1 F2].
      cbn [tgt_list elems assign_list]. rewrite aexec_app.
      assert (Head : aexec E tm (match t with
                       | TgtStar x => [AVar x (TSub rhs k (total - k - 1))]
                       | _ => tr_target E t (TGet rhs k) end) st
                     = py_assign E t (elem vs total k t) st).
      { destruct (a_ok st) eqn:Hok.
        2:{ rewrite aexec_notok, py_assign_notok; auto. }
        assert (Get : forall l h, (forall x, ~ In x xs -> l x = l0 x) -> (fs = false -> h = h0) ->
                  teval E l tm h (TGet rhs k) = nth k vs VNone).
        { intros l h A B. cbn [teval]. rewrite (Hv l h A B). reflexivity. }
        destruct (is_star t) eqn:Is.
        - destruct t; try discriminate. unfold aexec. simpl. unfold aexec1. rewrite Hok.
          cbn [teval]. rewrite (Val st Hr). reflexivity.
        - assert (G : aexec E tm (tr_target E t (TGet rhs k)) st
                      = py_assign E t (elem vs total k t) st).
          { apply (Ht W0 l0 h0 xs fs).
            - exact Hok.
            - intros x Hx. apply Hxs. simpl. apply in_or_app; auto.
            - intro Hf. apply Hfs. simpl. rewrite Hf. reflexivity.
            - right. unfold elem. rewrite Is. exact Get.
            - exact Hr.
            - unfold elem. rewrite Is. apply Get; apply Hr.
            - exact F1. }
          destruct t; try exact G. discriminate. }
      rewrite Head. apply IH; auto.
      * intros x Hx. apply Hxs. simpl. apply in_or_app; auto.
      * intro Hf. apply Hfs. simpl. rewrite Hf. apply orb_true_r.
      * destruct (py_assign_frame t (elem vs total k t) st) as [A B]. destruct Hr as [R1 R2].
        split.
        -- intros x Hx. rewrite A, R1; auto. intro F. apply Hx, Hxs. simpl. apply in_or_app; auto.
        -- intro Hf. rewrite B; auto. destruct (assigns_field t) eqn:AF; auto.
          exfalso. rewrite Hfs in Hf; [discriminate|]. simpl. rewrite AF. reflexivity.
    + assert (Hf : match star_at ts with
                   | None => Nat.eqb (length ts) (length vs) = false
                   | Some _ => Nat.leb (length ts - 1) (length vs) = false end).
      { unfold unpack in U. destruct (star_at ts).
        - destruct (Nat.leb (length ts - 1) (length vs)); [discriminate|reflexivity].
        - rewrite Nat.eqb_sym. destruct (Nat.eqb (length vs) (length ts)); [discriminate|reflexivity]. }
      destruct (star_at ts) as [i|] eqn:St.
      * rewrite (star_at_some ts i St). apply Hnone. exact Hf.
      * rewrite (star_at_none ts St). apply Hnone. exact Hf.
  - unfold aexec. simpl. unfold aexec1. rewrite Hok, He. reflexivity.
Qed.

Lemma assign_targets : forall ts, forallb wf_target ts = true ->
  forall l0 h0 xs fs rhs v st,
  (forall x, In x (flat_map assigned ts) -> In x xs) ->
  (existsb assigns_field ts = true -> fs = true) ->
  holds_value l0 h0 xs fs rhs v -> reach l0 h0 xs fs st ->
  Forall (fun t => star_fits t v) ts ->
  aexec E tm (flat_map (fun t => tr_target E t rhs) ts) st =
  fold_left (fun st t => py_assign E t v st) ts st.
Proof.
  induction ts as [|t ts IH]; intros W l0 h0 xs fs rhs v st Hxs Hfs Hv Hr Hs; [reflexivity|].
  simpl in W. apply andb_true_iff in W. destruct W as [W0 W1]. inversion Hs; subst.
  simpl flat_map. simpl fold_left. rewrite aexec_app.
  assert (Head : aexec E tm (tr_target E t rhs) st = py_assign E t v st).
  { destruct (a_ok st) eqn:Hok.
    - apply (assign_target t W0 l0 h0 xs fs); auto.
      + intros x Hx. apply Hxs. simpl. apply in_or_app; auto.
      + intro Hf. apply Hfs. simpl. rewrite Hf. reflexivity.
      + destruct Hr. apply Hv; auto.
    - rewrite aexec_notok, py_assign_notok; auto. }
  rewrite Head. apply (IH W1 l0 h0 xs fs); auto.
  - intros x Hx. apply Hxs. simpl. apply in_or_app; auto.
  - intro Hf. apply Hfs. simpl. rewrite Hf. apply orb_true_r.
  - destruct (py_assign_frame t v st) as [A B]. destruct Hr as [R1 R2]. split.
    + intros x Hx. rewrite A, R1; auto. intro F. apply Hx, Hxs. simpl. apply in_or_app; auto.
    + intro Hf. rewrite B; auto. destruct (assigns_field t) eqn:AF; auto.
      exfalso. rewrite Hfs in Hf; [discriminate|]. simpl. rewrite AF. reflexivity.
Qed.
End Assign.

(** The expression part mentions only the variables of the source that no call
    has consumed. *)
Definition loc_free (E : env) (e : expr) : Prop :=
  forall tb n s t n1, translate E tb e n = (s, t, n1) ->
  forall tm h l l', (forall x, mentions x e = true -> l x = l' x) ->
  teval E l tm h t = teval E l' tm h t.

Lemma tr_list_loc : forall E tb es, Forall (loc_free E) es ->
  forall n ss ts n1, tr_list (translate E tb) es n = (ss, ts, n1) ->
  forall tm h l l', (forall x, existsb (mentions x) es = true -> l x = l' x) ->
  Forall (fun t => teval E l tm h t = teval E l' tm h t) ts.
Proof.
  induction 1 as [|e es He Hes IH]; intros n ss ts n1 T tm h l l' Hl; simpl in T.
  - inversion T; constructor.
  - destruct (translate E tb e n) as [[s t] k] eqn:T1.
    destruct (tr_list (translate E tb) es k) as [[ss' ts'] k'] eqn:T2. inversion T; subst.
    constructor.
    + apply (He _ _ _ _ _ T1). intros x Hx. apply Hl. simpl. rewrite Hx. reflexivity.
    + apply (IH _ _ _ _ T2). intros x Hx. apply Hl. simpl. rewrite Hx. apply orb_true_r.
Qed.

Lemma map_eval_eq : forall E l l' tm h ts,
  Forall (fun t => teval E l tm h t = teval E l' tm h t) ts ->
  map (teval E l tm h) ts = map (teval E l' tm h) ts.
Proof. induction 1; simpl; congruence. Qed.

Lemma join_loc : forall E l l' tm h is_and ts,
  Forall (fun t => teval E l tm h t = teval E l' tm h t) ts ->
  teval E l tm h (join_bool is_and ts) = teval E l' tm h (join_bool is_and ts) /\
  teval E l tm h (join_val is_and ts) = teval E l' tm h (join_val is_and ts).
Proof.
  intros E l l' tm h is_and ts H. induction H as [|t ts Ht Hts [IH1 IH2]]; [auto|].
  destruct ts as [|u ts]; [simpl; rewrite Ht; auto|].
  rewrite join_cons_bool, join_cons_val.
  destruct is_and; cbn [teval]; rewrite Ht, IH1, IH2; auto.
Qed.

Lemma join_cmp_loc : forall E l l' tm h os ts acc p,
  teval E l tm h p = teval E l' tm h p ->
  Forall (fun t => teval E l tm h t = teval E l' tm h t) ts ->
  (forall a, acc = Some a -> teval E l tm h a = teval E l' tm h a) ->
  teval E l tm h (join_cmp acc p (combine os ts)) = teval E l' tm h (join_cmp acc p (combine os ts)).
Proof.
  induction os as [|o os IH]; intros ts acc p Hp Hts Ha; simpl.
  - destruct acc; auto.
  - destruct ts as [|t ts]; simpl; [destruct acc; auto|]. inversion Hts; subst.
    apply IH; auto. intros a Hs. inversion Hs; subst.
    destruct acc; cbn [teval]; rewrite Hp, H1; [rewrite (Ha _ eq_refl)|]; reflexivity.
Qed.

Lemma translate_loc : forall E e, loc_free E e.
Proof.
  intros E. induction e using expr_ind'; intros tb n s t n1 T tm h l l' Hl; simpl in T.
  - inversion T; reflexivity.
  - inversion T; subst. simpl. apply Hl. simpl. apply Nat.eqb_refl.
  - destruct (translate E false e n) as [[s' t'] k] eqn:T1. inversion T; subst. simpl.
    rewrite (IHe _ _ _ _ _ T1 tm h l l' Hl). reflexivity.
  - destruct (tr_list (translate E false) es n) as [[ss ts] k] eqn:T1. inversion T; subst. simpl.
    rewrite (map_eval_eq E l l' tm h ts); [reflexivity|].
    apply (tr_list_loc E false es H _ _ _ _ T1). exact Hl.
  - destruct (tr_list (translate E false) es n) as [[ss ts] k] eqn:T1. inversion T; subst. reflexivity.
  - destruct (tr_list (translate E false) es n) as [[ss ts] k] eqn:T1. inversion T; subst. simpl.
    rewrite (map_eval_eq E l l' tm h ts); [reflexivity|].
    apply (tr_list_loc E false es H _ _ _ _ T1). exact Hl.
  - destruct (translate E true e n) as [[s' t'] k] eqn:T1. inversion T; subst. simpl.
    rewrite (IHe _ _ _ _ _ T1 tm h l l' Hl). reflexivity.
  - destruct (translate E true e n) as [[s' t'] k] eqn:T1.
    destruct (tr_list (translate E true) es k) as [[ss ts] k'] eqn:T2. inversion T; subst.
    assert (F : Forall (fun t => teval E l tm h t = teval E l' tm h t) (t' :: ts)).
    { constructor.
      - apply (IHe _ _ _ _ _ T1). intros x Hx. apply Hl. simpl. rewrite Hx. reflexivity.
      - apply (tr_list_loc E true es H _ _ _ _ T2). intros x Hx. apply Hl. simpl.
        rewrite Hx. apply orb_true_r. }
    destruct (join_loc E l l' tm h b (t' :: ts) F) as [J1 J2].
    destruct (isb E e && forallb (isb E) es); auto.
  - destruct (translate E true e1 n) as [[sc tc] k] eqn:T1.
    destruct (translate E tb e2 k) as [[sa ta] k2] eqn:T2.
    destruct (translate E tb e3 k2) as [[sb tb'] k3] eqn:T3. inversion T; subst.
    assert (A1 : teval E l tm h tc = teval E l' tm h tc).
    { apply (IHe1 _ _ _ _ _ T1). intros x Hx. apply Hl. simpl. rewrite Hx. reflexivity. }
    assert (A2 : teval E l tm h ta = teval E l' tm h ta).
    { apply (IHe2 _ _ _ _ _ T2). intros x Hx. apply Hl. simpl. rewrite Hx, orb_true_r. reflexivity. }
    assert (A3 : teval E l tm h tb' = teval E l' tm h tb').
    { apply (IHe3 _ _ _ _ _ T3). intros x Hx. apply Hl. simpl. rewrite Hx, orb_true_r. reflexivity. }
    simpl. rewrite A1. destruct tb; simpl; rewrite A2, A3; reflexivity.
  - destruct (translate E false e n) as [[s' t'] k] eqn:T1.
    rewrite tr_plist_list in T.
    destruct (tr_list (translate E false) (map snd rest) k) as [[ss ts] k'] eqn:T2.
    inversion T; subst. apply join_cmp_loc.
    + apply (IHe _ _ _ _ _ T1). intros x Hx. apply Hl. simpl. rewrite Hx. reflexivity.
    + apply (tr_list_loc E false _ (Forall_map_snd _ _ H) _ _ _ _ T2). intros x Hx. apply Hl. simpl.
      rewrite existsb_map_snd in Hx. rewrite Hx. apply orb_true_r.
    + discriminate.
Qed.

Lemma assignment_right : forall E l Inv ts e n tm h,
  env_ok E -> sound_typing E l Inv -> Inv h ->
  ordered E e = true -> keeps_value E false e = true ->
  forallb wf_target ts = true -> single ts || untouched E ts e = true ->
  (forall v h', py_eval E l e h = Ok v h' -> Forall (fun t => star_fits t v) ts) ->
  exec_assign E (tr_assign E ts e n) l tm h = py_assign_stmt E ts e l h.
Proof.
  intros E l Inv ts e n tm h HE HT Hi O K W Safe Sf.
  unfold exec_assign, tr_assign, translate_expr, py_assign_stmt.
  destruct (translate E false e n) as [[s t] k] eqn:T. cbn [conv fst snd].
  pose proof (translate_sim E l Inv HE HT e false n s t k T O tm h Hi) as S1.
  destruct (py_eval E l e h) as [v h'|x h'] eqn:Pe; cbn [bind].
  2:{ destruct S1 as (tm' & X). rewrite X. reflexivity. }
  destruct S1 as (tm' & X & _ & _ & V). specialize (V K). rewrite X. f_equal.
  specialize (Sf v h' eq_refl).
  destruct (single ts) eqn:Sg.
  - destruct ts as [|t0 [|t1 ts]]; [discriminate| |destruct t0; discriminate].
    simpl flat_map. rewrite app_nil_r. simpl fold_left.
    simpl in W. rewrite andb_true_r in W. inversion Sf; subst.
    apply (assign_target E tm' t0 W l h' (assigned t0) true); auto.
    split; auto.
  - simpl in Safe. unfold untouched in Safe. apply andb_true_iff in Safe. destruct Safe as [U1 U2].
    apply (assign_targets E tm' ts W l h' (flat_map assigned ts) (existsb assigns_field ts)); auto.
    + intros l1 h1 A B. rewrite <- V.
      rewrite (translate_loc E e false n s t k T tm' h1 l1 l).
      * apply orb_true_iff in U2. destruct U2 as [U2|U2].
        -- apply negb_true_iff in U2. rewrite (B U2). reflexivity.
        -- apply negb_true_iff in U2.
           destruct (translate_struct E l HE e _ _ _ _ _ T) as (_ & _ & _ & D). apply D; auto.
      * intros x Hx. apply A. intro Hin. rewrite forallb_forall in U1. specialize (U1 x Hin).
        rewrite Hx in U1. discriminate.
    + split; auto.
Qed.

Lemma path_pure : forall e, is_path e = true -> effectful e = false.
Proof. induction e; simpl; auto; discriminate. Qed.

Lemma aug_right : forall E l Inv t read op e n tm h,
  env_ok E -> sound_typing E l Inv -> Inv h ->
  single [t] = true -> wf_target t = true -> is_path read = true ->
  ordered E e = true -> keeps_value E false e = true ->
  negb (effectful e) || negb (reads E read) = true ->
  exec_assign E (tr_aug E t read op e n) l tm h = py_aug_assign E t read op e l h.
Proof.
  intros E l Inv t read op e n tm h HE HT Hi Sg W Pr O K Safe.
  assert (Or : ordered E read = true /\ keeps_value E false read = true).
  { clear -Pr. induction read; simpl in *; try discriminate; auto.
    destruct (IHread Pr) as [A B]. rewrite A, B. auto. }
  destruct Or as [Or Kr].
  unfold exec_assign, tr_aug, translate_expr, py_aug_assign.
  destruct (translate E false read n) as [[s1 t1] k1] eqn:T1.
  destruct (translate E false e k1) as [[s2 t2] k2] eqn:T2. cbn [conv fst snd].
  destruct (translate_struct E l HE read _ _ _ _ _ T1) as (_ & _ & N1 & _).
  specialize (N1 (path_pure read Pr)). subst s1.
  assert (F : Forall (sim E l Inv) [read; e]).
  { repeat constructor; apply translate_sim; auto. }
  pose proof (sim_list E l Inv HE HT [read; e] F n [[]; s2] [t1; t2] k2) as SL.
  simpl tr_list in SL. rewrite T1, T2 in SL. specialize (SL eq_refl).
  simpl forallb in SL. rewrite Or, O, Kr, K in SL.
  assert (P : pairs_ok E [read; e] = true).
  { simpl. rewrite orb_false_r, andb_true_r. exact Safe. }
  specialize (SL eq_refl eq_refl P tm h Hi). simpl concat in SL. rewrite app_nil_r in SL.
  simpl ev_list in SL.
  destruct (py_eval E l read h) as [v h1|x h1] eqn:Pe; cbn [bind] in *.
  - destruct (py_eval E l e h1) as [w h2|x h2] eqn:Pw; cbn [bind] in *.
    + destruct SL as (tm' & X & _ & V & _). rewrite X. f_equal.
      apply (assign_target E tm' t W l h2 (assigned t) true); auto.
      * split; auto.
      * cbn [teval a_loc a_heap]. rewrite V. reflexivity.
      * destruct t; try discriminate; exact I.
    + destruct SL as (tm' & X). rewrite X. reflexivity.
  - destruct SL as (tm' & X). rewrite X. reflexivity.
Qed.

Definition flat (t : target) : bool :=
  match t with TgtVar _ | TgtStar _ => true | _ => false end.

Lemma flat_elems : forall E tm l0 h0 xs fs rhs vs total ts, forallb flat ts = true ->
  (forall x, In x (flat_map assigned ts) -> In x xs) ->
  holds_value E tm l0 h0 xs fs rhs (VSeq vs) ->
  forall k st, a_ok st = true -> reach l0 h0 xs fs st ->
  aexec E tm (tgt_list (tr_target E) total ts k rhs) st =
  assign_list (py_assign E) ts (elems vs total k ts) st.
Proof.
  induction ts as [|t ts IH]; intros Fl Hxs Hv k st Hok Hr; [reflexivity|].
  simpl in Fl. apply andb_true_iff in Fl. destruct Fl as [F0 F1].
  cbn [tgt_list elems assign_list]. rewrite aexec_app.
  assert (Head : aexec E tm (match t with
                       | TgtStar x => [AVar x (TSub rhs k (total - k - 1))]
                       | _ => tr_target E t (TGet rhs k) end) st
                     = py_assign E t (elem vs total k t) st).
  { pose proof (Hv _ _ (proj1 Hr) (proj2 Hr)) as V.
    destruct t; try discriminate; unfold aexec; simpl; unfold aexec1; rewrite Hok; cbn [teval];
      rewrite V; reflexivity. }
  rewrite Head. destruct (py_assign_frame E t (elem vs total k t) st) as [A B]. apply IH; auto.
  - intros x Hx. apply Hxs. simpl. apply in_or_app; auto.
  - destruct t; try discriminate; simpl; rewrite Hok; reflexivity.
  - destruct Hr as [R1 R2]. split.
    + intros x Hx. rewrite A, R1; auto. intro F. apply Hx, Hxs. simpl. apply in_or_app; auto.
    + intro Hf. rewrite B; auto. destruct t; try discriminate; reflexivity.
Qed.

Lemma assign_list_app : forall E ts1 ts2 w1 w2 st, length w1 = length ts1 ->
  assign_list (py_assign E) (ts1 ++ ts2) (w1 ++ w2) st =
  assign_list (py_assign E) ts2 w2 (assign_list (py_assign E) ts1 w1 st).
Proof.
  induction ts1 as [|t ts1 IH]; intros ts2 w1 w2 st H; destruct w1 as [|w w1]; try discriminate.
  - reflexivity.
  - simpl. apply IH. simpl in H. lia.
Qed.

Lemma assign_list_vars : forall E cs ws st,
  (forall y, ~ In y cs -> a_loc (assign_list (py_assign E) (map TgtVar cs) ws st) y = a_loc st y) /\
  a_heap (assign_list (py_assign E) (map TgtVar cs) ws st) = a_heap st /\
  a_ok (assign_list (py_assign E) (map TgtVar cs) ws st) = a_ok st.
Proof.
  induction cs as [|c cs IH]; intros ws st; simpl; [auto|].
  destruct ws as [|w ws]; [auto|].
  destruct (IH ws (if a_ok st then {| a_loc := upd_loc (a_loc st) c w; a_heap := a_heap st; a_ok := true |} else st))
    as (A & B & C).
  split; [|split].
  - intros y Hy. rewrite A by tauto. destruct (a_ok st); simpl; auto. unfold upd_loc.
    destruct (Nat.eqb_spec c y); auto. exfalso; tauto.
  - rewrite B. destruct (a_ok st); reflexivity.
  - rewrite C. destruct (a_ok st) eqn:X; auto.
Qed.

Lemma star_at_target : forall bs x cs,
  star_at (map TgtVar bs ++ TgtStar x :: map TgtVar cs) = Some (length bs).
Proof. induction bs; intros; simpl; [reflexivity|]. rewrite IHbs. reflexivity. Qed.

Lemma elems_flat_star : forall vs total bs x cs k,
  k + length bs <= length vs ->
  exists tl, elems vs total k (map TgtVar bs ++ TgtStar x :: map TgtVar cs) =
  firstn (length bs) (skipn k vs) ++
  VSeq (skipn (k + length bs) (firstn (length vs - (total - (k + length bs) - 1)) vs)) :: tl.
Proof.
  induction bs as [|b bs IH]; intros x cs k Hl.
  - simpl. rewrite Nat.add_0_r. eexists; reflexivity.
  - simpl map. simpl app. cbn [elems]. simpl length in *.
    destruct (IH x cs (S k)) as [tl Htl]; [lia|]. exists tl. rewrite Htl.
    assert (Sk : skipn k vs = nth k vs VNone :: skipn (S k) vs).
    { assert (Hlt : k < length vs) by lia. clear -Hlt. revert k Hlt.
      induction vs as [|v vs IHv]; intros k Hl; simpl in Hl; [lia|].
      destruct k; [reflexivity|]. simpl. apply IHv. lia. }
    rewrite Sk. simpl firstn. replace (k + S (length bs)) with (S k + length bs) by lia.
    reflexivity.
Qed.

Lemma star_right : forall E l Inv bs x cs e n tm h,
  env_ok E -> sound_typing E l Inv -> Inv h ->
  ordered E e = true -> keeps_value E false e = true ->
  untouched E [star_target bs x cs] e = true ->
  agree_except cs (exec_assign E (tr_assign E [star_target bs x cs] e n) l tm h)
                  (py_assign_stmt E [star_target bs x cs] e l h).
Proof.
  intros E l Inv bs x cs e n tm h HE HT Hi O K U.
  unfold exec_assign, tr_assign, translate_expr, py_assign_stmt.
  destruct (translate E false e n) as [[s t] k] eqn:T. cbn [conv fst snd].
  pose proof (translate_sim E l Inv HE HT e false n s t k T O tm h Hi) as S1.
  destruct (py_eval E l e h) as [v h'|ex h'] eqn:Pe; cbn [bind].
  2:{ destruct S1 as (tm' & X). rewrite X. simpl. auto. }
  destruct S1 as (tm' & X & _ & _ & V). specialize (V K). rewrite X.
  unfold agree_except. split; [reflexivity|].
  simpl flat_map. rewrite app_nil_r. simpl fold_left. unfold star_target in *.
  set (ts := map TgtVar bs ++ TgtStar x :: map TgtVar cs) in *.
  unfold untouched in U. apply andb_true_iff in U. destruct U as [U1 _].
  simpl flat_map in U1. rewrite app_nil_r in U1.
  assert (Hv : holds_value E tm' l h' (flat_map assigned ts) false t v).
  { intros l1 h1 A B. rewrite <- V. rewrite (B eq_refl).
    apply (translate_loc E e false n s t k T tm' h' l1 l).
    intros y Hy. apply A. intro Hin. rewrite forallb_forall in U1. specialize (U1 y Hin).
    rewrite Hy in U1. discriminate. }
  set (st := {| a_loc := l; a_heap := h'; a_ok := true |}).
  assert (Hr : reach l h' (flat_map assigned ts) false st) by (split; auto).
  assert (Fl : forallb flat ts = true).
  { unfold ts. rewrite forallb_app. simpl. apply andb_true_iff. split;
      apply forallb_forall; intros y Hy; apply in_map_iff in Hy; destruct Hy as (z & <- & _); reflexivity. }
  assert (Ex : existsb is_star ts = true).
  { apply (star_at_some ts (length bs)). apply star_at_target. }
  assert (Len : length ts = length bs + S (length cs)).
  { unfold ts. rewrite app_length. simpl. rewrite !map_length. reflexivity. }
  simpl tr_target. rewrite Ex.
  assert (Hd : aexec E tm' (AAssertLen (length ts - 1) false t
                 :: tgt_list (tr_target E) (length ts) ts 0 t) st =
     match v with
     | VSeq vs => if Nat.leb (length ts - 1) (length vs)
                  then assign_list (py_assign E) ts (elems vs (length ts) 0 ts) st
                  else {| a_loc := l; a_heap := h'; a_ok := false |}
     | _ => {| a_loc := l; a_heap := h'; a_ok := false |}
     end).
  { unfold aexec. simpl fold_left. unfold aexec1 at 2. simpl a_ok.
    cbv iota. simpl a_loc. simpl a_heap. rewrite V.
    destruct v as [| | | |vs]; try (apply (aexec_notok E tm'); reflexivity).
    destruct (Nat.leb (length ts - 1) (length vs)).
    - apply (flat_elems E tm' l h' (flat_map assigned ts) false); auto.
    - apply (aexec_notok E tm'); reflexivity. }
  rewrite Hd. clear Hd. simpl py_assign.
  destruct v as [| | | |vs]; simpl; auto.
  assert (Un : unpack ts vs =
    if Nat.leb (length ts - 1) (length vs)
    then Some (firstn (length bs) vs ++
                 VSeq (firstn (length vs - length cs - length bs) (skipn (length bs) vs)) ::
                 skipn (length vs - length cs) vs)
    else None).
  { unfold unpack. unfold ts at 1. rewrite star_at_target.
    replace (length ts - 1 - length bs) with (length cs) by lia. reflexivity. }
  rewrite Un. destruct (Nat.leb_spec (length ts - 1) (length vs)) as [Le|Gt]; simpl; auto.
  destruct (elems_flat_star vs (length ts) bs x cs 0) as [tl Htl]; [lia|].
  fold ts in Htl. rewrite Htl. simpl Nat.add. simpl skipn at 1.
  replace (length ts - length bs - 1) with (length cs) by lia.
  rewrite firstn_skipn_comm.
  replace (length bs + (length vs - length cs - length bs)) with (length vs - length cs) by lia.
  assert (L1 : length (firstn (length bs) vs) = length (map TgtVar bs)).
  { rewrite firstn_length, map_length. lia. }
  unfold ts. simpl (skipn 0 vs).
  rewrite !assign_list_app by exact L1.
  set (st1 := assign_list (py_assign E) (map TgtVar bs) (firstn (length bs) vs) st).
  cbn [assign_list].
  set (st2 := py_assign E (TgtStar x) _ st1).
  destruct (assign_list_vars E cs tl st2) as (A1 & B1 & C1).
  destruct (assign_list_vars E cs (skipn (length vs - length cs) vs) st2) as (A2 & B2 & C2).
  split; [congruence|]. split; [congruence|].
  intros y Hy. rewrite A1, A2; auto.
Qed.

(** what the targets after the star get *)
Lemma assign_vars_nth : forall E cs ws st, NoDup cs -> length ws = length cs -> a_ok st = true ->
  forall j, j < length cs ->
  a_loc (assign_list (py_assign E) (map TgtVar cs) ws st) (nth j cs 0) = nth j ws VNone.
Proof.
  induction cs as [|c cs IH]; intros ws st Hd Hl Hok j Hj; simpl in Hj; [lia|].
  destruct ws as [|w ws]; [discriminate|]. inversion Hd; subst. simpl in Hl.
  cbn [map assign_list].
  destruct j as [|j].
  - simpl nth. destruct (assign_list_vars E cs ws (py_assign E (TgtVar c) w st)) as (A & _ & _).
    rewrite A by assumption. simpl. rewrite Hok. simpl. unfold upd_loc. rewrite Nat.eqb_refl. reflexivity.
  - simpl nth. apply IH; [assumption | lia | simpl; rewrite Hok; reflexivity | lia].
Qed.

Lemma elems_flat_after : forall vs total cs k, 
  elems vs total k (map TgtVar cs) = map (fun j => nth (k + j) vs VNone) (seq 0 (length cs)).
Proof.
  induction cs as [|c cs IH]; intro k; [reflexivity|].
  simpl map. cbn [elems seq length map]. rewrite Nat.add_0_r. f_equal.
  rewrite IH. rewrite <- seq_shift, map_map. apply map_ext. intro j. f_equal. lia.
Qed.

Lemma elems_app : forall vs total a b k,
  elems vs total k (a ++ b) = elems vs total k a ++ elems vs total (k + length a) b.
Proof.
  induction a as [|t a IH]; intros b k; simpl; [rewrite Nat.add_0_r; reflexivity|].
  f_equal. rewrite IH. f_equal. f_equal. lia.
Qed.

(** ** The statements used by the property theorems *)

Lemma run_right : forall E l Inv e n tm h tb,
  env_ok E -> sound_typing E l Inv -> Inv h -> ordered E e = true ->
  (tb = false -> keeps_value E false e = true) ->
  run E l (translate_expr E tb e n) tm h = py_value E l tb e h.
Proof.
  intros E l Inv e n tm h tb HE HT Hi O K. unfold run, translate_expr, py_value.
  destruct (translate E tb e n) as [[s t] k] eqn:T. cbn [fst snd].
  pose proof (translate_sim E l Inv HE HT e tb n s t k T O tm h Hi) as S1.
  destruct (py_eval E l e h) as [v h'|x h'] eqn:Pe; cbn [bind].
  - destruct S1 as (tm' & X & _ & V & V'). rewrite X. destruct tb; cbn [conv teval].
    + rewrite V. reflexivity.
    + rewrite V'; auto.
  - destruct S1 as (tm' & X). rewrite X. reflexivity.
Qed.

Lemma bool_stops : forall E l Inv is_and e es n tm h v h',
  env_ok E -> sound_typing E l Inv -> Inv h ->
  ordered E e = true -> keeps_value E true e = true ->
  py_eval E l e h = Ok v h' -> truthy v = negb is_and ->
  run E l (translate_expr E false (EBool is_and e es) n) tm h = Ok v h'.
Proof.
  intros E l Inv is_and e es n tm h v h' HE HT Hi O K Pe Tv.
  unfold run, translate_expr. simpl translate.
  destruct (translate E true e n) as [[s t] k] eqn:T.
  destruct (tr_list (translate E true) es k) as [[ss ts] k'] eqn:T2. cbn [fst snd conv].
  pose proof (translate_sim E l Inv HE HT e true n s t k T O tm h Hi) as S1.
  rewrite Pe in S1. destruct S1 as (tm' & X & _ & V & V'). specialize (V' K).
  rewrite exec_app, X.
  pose proof (guard_skip E l is_and ss ts [] t [] tm' h' (Forall_nil _)) as G.
  simpl app in G. rewrite G by congruence.
  f_equal. destruct (isb E e && forallb (isb E) es) eqn:AB.
  - assert (Tt : truthy (teval E l tm' h' t) = negb is_and) by congruence.
    etransitivity; [exact (join_bool_stop E l is_and [] t ts tm' h' (Forall_nil _) Tt)|].
    apply andb_true_iff in AB. destruct (HT e h v h' Hi Pe) as [_ Tb].
    destruct (Tb (proj1 AB)) as [c ->]. simpl in Tv. congruence.
  - assert (Tt : truthy (teval E l tm' h' t) = negb is_and) by congruence.
    etransitivity; [exact (join_val_stop E l is_and [] t ts tm' h' (Forall_nil _) Tt)|]. exact V'.
Qed.

Lemma if_takes : forall E l Inv c a b n tm h v h1,
  env_ok E -> sound_typing E l Inv -> Inv h ->
  ordered E c = true -> py_eval E l c h = Ok v h1 ->
  let taken := if truthy v then a else b in
  ordered E taken = true -> keeps_value E false taken = true ->
  negb (effectful taken) || negb (reads E c) = true ->
  run E l (translate_expr E false (EIf c a b) n) tm h = py_eval E l taken h1.
Proof.
  intros E l Inv c a b n tm h v h1 HE HT Hi Oc Pc taken Ot Kt Safe.
  unfold run, translate_expr. simpl translate.
  destruct (translate E true c n) as [[sc tc] k1] eqn:T1.
  destruct (translate E false a k1) as [[sa ta] k2] eqn:T2.
  destruct (translate E false b k2) as [[sb tb] k3] eqn:T3. cbn [fst snd conv].
  destruct (translate_struct E l HE c _ _ _ _ _ T1) as (L1 & _).
  destruct (translate_struct E l HE a _ _ _ _ _ T2) as (L2 & _ & Ca & _).
  destruct (translate_struct E l HE b _ _ _ _ _ T3) as (L3 & _ & Cb & _).
  pose proof (translate_sim E l Inv HE HT c true n sc tc k1 T1 Oc tm h Hi) as S1.
  rewrite Pc in S1. destruct S1 as (tm1 & X1 & _ & V1 & _).
  destruct (HT c h v h1 Hi Pc) as [Hi1 _].
  rewrite exec_app, X1.
  assert (X : exec E l (match sa with [] => match sb with [] => [] | _ :: _ => [SIf (TBool tc) sa sb] end
                          | _ :: _ => [SIf (TBool tc) sa sb] end) tm1 h1
                = if truthy v then exec E l sa tm1 h1 else exec E l sb tm1 h1).
  { assert (Y : exec E l [SIf (TBool tc) sa sb] tm1 h1 =
                  if truthy v then exec E l sa tm1 h1 else exec E l sb tm1 h1).
    { unfold exec. cbn [exec_seq exec1 conv teval truthy]. rewrite V1.
      destruct (truthy v); [destruct (exec_seq (exec1 E l) sa tm1 h1) | destruct (exec_seq (exec1 E l) sb tm1 h1)]; reflexivity. }
    destruct sa as [|? ?]; [destruct sb as [|? ?]|]; try exact Y. destruct (truthy v); reflexivity. }
  rewrite X.
  assert (Cond : forall tm2 h2, agree tm1 tm2 k1 -> (effectful taken = false -> h2 = h1) ->
       truthy (teval E l tm2 h2 (TBool tc)) = truthy v).
  { intros tm2 h2 Ag Eh. cbn [teval truthy]. rewrite <- V1. f_equal.
    apply (survive E l HE c n tc k1 sc true tm1 tm2 h1 h2 (effectful taken) T1 Ag).
    - intro Ef. rewrite Ef in Safe. simpl in Safe. apply negb_true_iff in Safe. exact Safe.
    - exact Eh. }
  subst taken. destruct (truthy v) eqn:Tv.
  - pose proof (translate_sim E l Inv HE HT a false k1 sa ta k2 T2 Ot tm1 h1 Hi1) as S2.
    destruct (py_eval E l a h1) as [w h2|x h2].
    + destruct S2 as (tm2 & X2 & Ag & _ & W). rewrite X2. rewrite teval_cond, Cond; auto.
      * rewrite W; auto.
      * intro Ef. rewrite (Ca Ef) in X2. inversion X2; reflexivity.
    + destruct S2 as (tm2 & X2). rewrite X2. reflexivity.
  - pose proof (translate_sim E l Inv HE HT b false k2 sb tb k3 T3 Ot tm1 h1 Hi1) as S2.
    destruct (py_eval E l b h1) as [w h2|x h2].
    + destruct S2 as (tm2 & X2 & Ag & _ & W). rewrite X2. rewrite teval_cond, Cond.
      * rewrite W; auto.
      * intros j Hj. apply Ag. lia.
      * intro Ef. rewrite (Cb Ef) in X2. inversion X2; reflexivity.
    + destruct S2 as (tm2 & X2). rewrite X2. reflexivity.
Qed.

Lemma c14_operand_order_partial : forall E l Inv e n tm h as_condition,
  env_ok E -> sound_typing E l Inv -> Inv h ->
  ordered E e = true ->
  (as_condition = false -> keeps_value E false e = true) ->
  run E l (translate_expr E as_condition e n) tm h = py_value E l as_condition e h.
Proof.
  intros E l Inv e n tm h tb. exact (run_right E l Inv e n tm h tb).
Qed.

Lemma c15_and_or_partial : forall E l Inv is_and e es n tm h,
  env_ok E -> sound_typing E l Inv -> Inv h ->
  ordered E (EBool is_and e es) = true ->
  keeps_value E false (EBool is_and e es) = true ->
  run E l (translate_expr E false (EBool is_and e es) n) tm h
  = py_value E l false (EBool is_and e es) h.
Proof.
  intros E l Inv is_and e es n tm h HE HT Hi O K.
  exact (run_right E l Inv (EBool is_and e es) n tm h false HE HT Hi O (fun _ => K)).
Qed.

Lemma c16_chain_partial : forall E l Inv e rest n tm h,
  env_ok E -> sound_typing E l Inv -> Inv h ->
  ordered E (ECmp e rest) = true ->
  run E l (translate_expr E false (ECmp e rest) n) tm h
  = py_value E l false (ECmp e rest) h.
Proof.
  intros E l Inv e rest n tm h HE HT Hi O.
  exact (run_right E l Inv (ECmp e rest) n tm h false HE HT Hi O (fun _ => eq_refl)).
Qed.

Lemma c18_star_last_partial : forall E l Inv bs x cs e n tm h,
  env_ok E -> sound_typing E l Inv -> Inv h ->
  ordered E e = true -> keeps_value E false e = true ->
  untouched E [star_target bs x cs] e = true ->
  (cs = [] \/ forall vs h', py_eval E l e h = Ok (VSeq vs) h' ->
              length vs = length bs + 1 + length cs) ->
  exec_assign E (tr_assign E [star_target bs x cs] e n) l tm h
  = py_assign_stmt E [star_target bs x cs] e l h.
Proof.
  intros E l Inv bs x cs e n tm h HE HT Hi O K U Hc.
  apply (assignment_right E l Inv); auto.
  - simpl. rewrite andb_true_r. unfold star_target. simpl. apply andb_true_iff. split.
    + rewrite forallb_app. simpl. apply andb_true_iff. split;
        apply forallb_forall; intros t Ht; apply in_map_iff in Ht; destruct Ht as (z & <- & _); reflexivity.
    + rewrite filter_app. simpl. assert (N : forall zs, filter is_star (map TgtVar zs) = []).
      { induction zs; simpl; auto. }
      rewrite !N. reflexivity.
  - intros v h' Pe. constructor; [|constructor]. unfold star_target. simpl.
    destruct v; auto. rewrite star_at_target. split.
    + rewrite app_length. simpl. rewrite !map_length. intro Hl.
      destruct Hc as [->|Hc]; [simpl in Hl; lia|]. rewrite (Hc vs h' Pe). lia.
    + destruct (unpack _ vs) as [ws|]; auto.
      assert (G : forall ts ws, forallb flat ts = true -> fits_list star_fits ts ws).
      { induction ts as [|t ts IH]; intros ws' Hf; simpl; auto. destruct ws'; auto.
        simpl in Hf. apply andb_true_iff in Hf. destruct Hf. split; auto.
        destruct t; try discriminate; exact I. }
      apply G. rewrite forallb_app. simpl. apply andb_true_iff. split;
        apply forallb_forall; intros t Ht; apply in_map_iff in Ht; destruct Ht as (z & <- & _); reflexivity.
Qed.
