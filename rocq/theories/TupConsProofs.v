(** A model of the axioms about classes and tuples, without the two that contradict the rest. *)
From Coq Require Import Bool Arith List Lia ZArith.
From Verif Require Import ClsModel ClsSpec ClsProofs TupSpec TupModel TupProofs.
Import ListNotations.

Inductive uty :=
| UApp (c : cid) (l : list uty)
| UTup (l : list uty)
| UVar (t : uty)
| UUn (l : list uty)
| UBas (c : cid)
| UTB
| UUB.
Lemma uty_ind' (P : uty -> Prop) :
  (forall c l, Forall P l -> P (UApp c l)) -> (forall l, Forall P l -> P (UTup l)) -> (forall t, P t -> P (UVar t)) ->
  (forall l, Forall P l -> P (UUn l)) -> (forall c, P (UBas c)) -> P UTB -> P UUB -> forall t, P t.
Proof.
  intros A B C D E F G. fix IH 1. intros [c l|l|t|l|c| |]; [apply A|apply B|apply C; apply IH|apply D|apply E|apply F|apply G];
    induction l; constructor; auto.
Qed.
Fixpoint ueqb (a b : uty) {struct a} : bool :=
  let fix go (l m : list uty) {struct l} : bool :=
    match l, m with
    | [], [] => true
    | x :: l', y :: m' => ueqb x y && go l' m'
    | _, _ => false
    end in
  match a, b with
  | UApp c l, UApp d m => (c =? d) && go l m
  | UTup l, UTup m => go l m
  | UVar t, UVar u => ueqb t u
  | UUn l, UUn m => go l m
  | UBas c, UBas d => c =? d
  | UTB, UTB => true
  | UUB, UUB => true
  | _, _ => false
  end.
Fixpoint usqb (l m : list uty) : bool :=
  match l, m with
  | [], [] => true
  | x :: l', y :: m' => ueqb x y && usqb l' m'
  | _, _ => false
  end.
Lemma ueqb_go l m :
  (fix go (l m : list uty) {struct l} : bool :=
    match l, m with
    | [], [] => true
    | x :: l', y :: m' => ueqb x y && go l' m'
    | _, _ => false
    end) l m = usqb l m.
Proof. revert m. induction l; destruct m; cbn; auto. Qed.
Lemma usqb_spec l : Forall (fun x => forall y, ueqb x y = true <-> x = y) l -> forall m, usqb l m = true <-> l = m.
Proof.
  induction 1 as [|x l Hx _ IH]; intros [|y m]; cbn [usqb]; try (split; congruence).
  rewrite andb_true_iff, Hx, IH. split; [intros [-> ->]; auto|intros [= -> ->]; auto].
Qed.
Lemma ueqb_spec a : forall b, ueqb a b = true <-> a = b.
Proof.
  induction a as [c l IH|l IH|t IH|l IH|c| |] using uty_ind'; intros [d m|m|u|m|d| |]; cbn [ueqb]; try (split; congruence).
  - rewrite ueqb_go, andb_true_iff, Nat.eqb_eq, (usqb_spec _ IH).
    split; [intros [-> ->]; auto|intros [= -> ->]; auto].
  - rewrite ueqb_go, (usqb_spec _ IH). split; congruence.
  - rewrite IH. split; congruence.
  - rewrite ueqb_go, (usqb_spec _ IH). split; congruence.
  - rewrite Nat.eqb_eq. split; congruence.
Qed.
Lemma ueqb_refl a : ueqb a a = true.
Proof. now apply ueqb_spec. Qed.
Lemma uty_dec (a b : uty) : a = b \/ a <> b.
Proof. destruct (ueqb a b) eqn:E; [left; now apply ueqb_spec|right; intros K; apply ueqb_spec in K; congruence]. Qed.

Section Cons.
Context (n : nat) (tb : table) (WF : wf_table n tb).

Definition uobj : uty := UApp 0 [].

Fixpoint uinst (args : list uty) (t : texpr) : uty :=
  match t with
  | TVar i => nth i args UUB
  | TApp c l => UApp c (map (uinst args) l)
  end.

(** The base: the instantiated base of a class type, object for everything else. *)
Definition usuper (t : uty) : option uty :=
  match t with
  | UApp c l =>
    if (c =? 0) && match l with [] => true | _ => false end then None
    else if c <? n then
      match c_super (tb c) with Some (p, m) => Some (UApp p (map (uinst l) m)) | None => Some uobj end
    else Some uobj
  | _ => Some uobj
  end.
Definition urank (t : uty) : nat :=
  match t with UApp c l => if (c =? 0) && match l with [] => true | _ => false end then 0 else S c | _ => 1 end.

Lemma urank_obj : urank uobj = 0.
Proof. reflexivity. Qed.
Lemma usuper_rank t b : usuper t = Some b -> urank b < urank t.
Proof.
  destruct t as [c l|l|t|l|c| |]; cbn [usuper urank]; try (intros [= <-]; rewrite urank_obj; lia).
  destruct ((c =? 0) && _) eqn:E; [discriminate|].
  destruct (c <? n) eqn:C; [|intros [= <-]; rewrite urank_obj; lia].
  destruct (c_super (tb c)) as [(p, m)|] eqn:S; intros [= <-]; [|rewrite urank_obj; lia].
  apply Nat.ltb_lt in C.
  assert (p < c) as P. { eapply super_lt; eauto. unfold superclass. now rewrite S. }
  cbn [urank]. destruct ((p =? 0) && _); lia.
Qed.
Lemma usuper_none t : usuper t = None -> t = uobj.
Proof.
  destruct t as [c l|l|t|l|c| |]; cbn [usuper]; try discriminate.
  destruct ((c =? 0) && _) eqn:E.
  - intros _. apply andb_prop in E as [E1 E2]. apply Nat.eqb_eq in E1 as ->. destruct l; [reflexivity|discriminate].
  - destruct (c <? n); [|discriminate]. destruct (c_super (tb c)) as [(p, m)|]; discriminate.
Qed.

Fixpoint uchain (fuel : nat) (t : uty) : list uty :=
  t :: match fuel with O => [] | S f => match usuper t with Some b => uchain f b | None => [] end end.

(** The ancestors of a type. *)
Inductive ubelow : uty -> uty -> Prop :=
| ub_refl t : ubelow t t
| ub_step t b u : usuper t = Some b -> ubelow b u -> ubelow t u.

Lemma uchain_spec fuel t u : urank t <= fuel -> (In u (uchain fuel t) <-> ubelow t u).
Proof.
  revert t. induction fuel as [|f IH]; intros t L; cbn [uchain].
  - destruct (usuper t) as [b|] eqn:E. { apply usuper_rank in E. lia. }
    split; [intros [<-|[]]; constructor|]. intros H. inversion H; subst; [now left|congruence].
  - destruct (usuper t) as [b|] eqn:E.
    + pose proof (usuper_rank _ _ E). cbn [In]. rewrite IH by lia. split.
      * intros [<-|H1]; [constructor|]. eapply ub_step; eauto.
      * intros H1. inversion H1; subst; auto. right. congruence.
    + split; [intros [<-|[]]; constructor|]. intros H. inversion H; subst; [now left|congruence].
Qed.
Definition uinh (t u : uty) : bool := existsb (ueqb u) (uchain (urank t) t).
Lemma uinh_spec t u : uinh t u = true <-> ubelow t u.
Proof.
  unfold uinh. rewrite existsb_exists, <- (uchain_spec (urank t)) by auto. split.
  - intros (x & H & E). apply ueqb_spec in E. now subst.
  - intros H. exists u. split; auto. apply ueqb_refl.
Qed.
Lemma ubelow_trans a b c : ubelow a b -> ubelow b c -> ubelow a c.
Proof. induction 1; auto. intros. eapply ub_step; eauto. Qed.
Lemma ubelow_linear a b c : ubelow a b -> ubelow a c -> ubelow b c \/ ubelow c b.
Proof.
  induction 1 as [t|t b u S B IH]; auto. intros H. inversion H; subst.
  - right. eapply ub_step; eauto.
  - rewrite S in H0. injection H0 as <-. auto.
Qed.
Lemma ubelow_rank a b : ubelow a b -> urank b <= urank a /\ (urank b = urank a -> b = a).
Proof.
  induction 1 as [t|t b u S B [IH1 IH2]]; [auto|]. apply usuper_rank in S. split; lia.
Qed.
Lemma ubelow_obj t : ubelow t uobj.
Proof.
  remember (urank t) as r eqn:R. revert t R. induction r as [r IH] using lt_wf_ind. intros t ->.
  destruct (usuper t) as [b|] eqn:E.
  - eapply ub_step; eauto. eapply IH; [|reflexivity]. now apply usuper_rank.
  - rewrite (usuper_none _ E). constructor.
Qed.
Lemma siblings_exclude t a b s : usuper a = Some s -> usuper b = Some s -> a <> b ->
  ubelow t a -> ubelow t b -> False.
Proof.
  intros A B NE TA TB.
  assert (forall x y, usuper x = Some s -> usuper y = Some s -> x <> y -> ubelow x y -> False) as K.
  { intros x y X Y N H. inversion H; subst; [congruence|]. rewrite X in H0. injection H0 as <-.
    apply ubelow_rank in H1 as [H1 _]. apply usuper_rank in Y. lia. }
  destruct (ubelow_linear _ _ _ TA TB); [apply (K a b)|apply (K b a)]; auto.
Qed.
Lemma ubelow_args c l m t : c <> 0 \/ l <> [] -> c <> 0 \/ m <> [] -> ubelow t (UApp c l) -> ubelow t (UApp c m) -> l = m.
Proof.
  intros NL NM A B.
  assert (urank (UApp c l) = urank (UApp c m)) as R.
  { cbn [urank]. destruct c; cbn; auto. destruct l, m; destruct NL, NM; congruence || reflexivity. }
  destruct (ubelow_linear _ _ _ A B) as [H|H]; apply ubelow_rank in H as [_ H].
  - specialize (H ltac:(congruence)). congruence.
  - specialize (H ltac:(congruence)). congruence.
Qed.

Definition usib (a b : uty) : bool :=
  match usuper a, usuper b with Some s, Some s' => ueqb s s' && negb (ueqb a b) | _, _ => false end.
Lemma usib_spec a b : usib a b = true <-> exists s, usuper a = Some s /\ usuper b = Some s /\ a <> b.
Proof.
  unfold usib. destruct (usuper a) as [s|] eqn:A; [|split; [discriminate|intros (s & K & _); discriminate]].
  destruct (usuper b) as [s'|] eqn:B; [|split; [discriminate|intros (s2 & _ & K & _); discriminate]].
  rewrite andb_true_iff, ueqb_spec, negb_true_iff. split.
  - intros [-> E]. exists s'. repeat split; auto. intros ->. now rewrite ueqb_refl in E.
  - intros (s2 & [= ->] & [= ->] & N). split; auto. destruct (ueqb a b) eqn:E; auto. apply ueqb_spec in E. contradiction.
Qed.
Definition uext (a b : uty) : bool := match usuper a with Some s => ueqb s b | None => false end.
Lemma uext_spec a b : uext a b = true <-> usuper a = Some b.
Proof. unfold uext. destruct (usuper a); [|split; discriminate]. rewrite ueqb_spec. split; congruence. Qed.

Definition ubasic (t : uty) : uty :=
  match t with
  | UApp c l => if c_nvars (tb c) =? 0 then t else UBas c
  | UTup _ | UVar _ => UTB
  | UUn _ => UUB
  | _ => t
  end.
Definition has_head (c : cid) (t : uty) : bool := match t with UApp d _ => c =? d | _ => false end.
Definition uarg_of (c : cid) (t : uty) (i : nat) : uty :=
  match find (has_head c) (uchain (urank t) t) with Some (UApp _ l) => nth i l UUB | _ => UUB end.

Lemma uarg_spec c l t i : c <> 0 -> ubelow t (UApp c l) -> uarg_of c t i = nth i l UUB.
Proof.
  intros C B. unfold uarg_of. destruct (find _ _) as [x|] eqn:F.
  - apply find_some in F as [F1 F2]. destruct x as [d m| | | | | |]; try discriminate. cbn in F2. apply Nat.eqb_eq in F2 as <-.
    apply uchain_spec in F1; auto. rewrite (ubelow_args c l m t); auto.
  - exfalso. apply find_none with (x := UApp c l) in F; [|now apply uchain_spec]. cbn in F. rewrite Nat.eqb_refl in F. discriminate.
Qed.

Lemma class_super c p l args : c < n -> c_super (tb c) = Some (p, l) -> usuper (UApp c args) = Some (UApp p (map (uinst args) l)).
Proof.
  intros C S. cbn [usuper]. destruct (c =? 0) eqn:E.
  - apply Nat.eqb_eq in E as ->. destruct (wf_object _ _ WF) as [X _]. unfold object_id in X. congruence.
  - cbn [andb]. apply Nat.ltb_lt in C. now rewrite C, S.
Qed.
Lemma class_nonzero c : c < n -> c_nvars (tb c) <> 0 -> c <> 0.
Proof. intros C N ->. destruct (wf_object _ _ WF) as [_ X]. unfold object_id in X. congruence. Qed.
Lemma none_super : usuper (UApp 1 []) = Some uobj.
Proof.
  destruct (wf_none _ _ WF) as [X _]. pose proof (wf_two _ _ WF). unfold none_id, object_id in X.
  now rewrite (class_super 1 0 []) by (auto; lia).
Qed.
Lemma obj_not_none : ~ ubelow uobj (UApp 1 []).
Proof. intros H. apply ubelow_rank in H as [H _]. cbn in H. lia. Qed.

Definition classlike (t : uty) : bool := match t with UTup _ | UVar _ | UUn _ => false | _ => true end.
Definition is_un (t : uty) : bool := match t with UUn _ => true | _ => false end.
Fixpoint sub (a b : uty) {struct b} : bool :=
  match b with
  | UTup m =>
      match a with
      | UTup l =>
          (fix go (l m : list uty) {struct m} : bool :=
             match l, m with [], [] => true | x :: l, y :: m => sub x y && go l m | _, _ => false end) l m
      | _ => false
      end
  | UVar u => match a with UTup l => forallb (fun x => sub x u) l | UVar t => sub t u | _ => false end
  | UUn l =>
      ueqb a b || (negb (is_un a) && negb (ueqb a uobj) &&
                   (fix any (l : list uty) : bool := match l with [] => false | y :: l => sub a y || any l end) l)
  | _ => if classlike a then uinh a b else ueqb b uobj
  end.
Lemma sub_tup l m : sub (UTup l) (UTup m) = true <-> Forall2 (fun x y => sub x y = true) l m.
Proof.
  cbn [sub]. revert l. induction m as [|y m IH]; intros [|x l]; split; try discriminate; try (intros H; inversion H; fail); auto.
  - intros H. apply andb_prop in H as [H1 H2]. constructor; auto. now apply IH.
  - intros H. inversion H; subst. apply andb_true_intro. split; auto. now apply IH.
Qed.
Lemma sub_tup_var l u : sub (UTup l) (UVar u) = true <-> Forall (fun x => sub x u = true) l.
Proof. cbn [sub]. rewrite forallb_forall, Forall_forall. reflexivity. Qed.
Lemma any_exists a l :
  (fix any (l : list uty) : bool := match l with [] => false | y :: l => sub a y || any l end) l = existsb (sub a) l.
Proof. induction l as [|y l IH]; cbn; [reflexivity|now rewrite IH]. Qed.
Lemma sub_un a l : sub a (UUn l) = true <-> a = UUn l \/ (is_un a = false /\ a <> uobj /\ exists y, In y l /\ sub a y = true).
Proof.
  cbn [sub]. rewrite any_exists, orb_true_iff, !andb_true_iff, !negb_true_iff, ueqb_spec, existsb_exists.
  split; (intros [H|H]; [now left|right]).
  - destruct H as [[H1 H2] H3]. repeat split; auto. intros ->. now rewrite ueqb_refl in H2.
  - destruct H as [H1 [H2 H3]]. repeat split; auto. destruct (ueqb a uobj) eqn:E; auto. apply ueqb_spec in E. contradiction.
Qed.
Lemma sub_cls a b : classlike b = true -> (sub a b = true <-> if classlike a then ubelow a b else b = uobj).
Proof.
  intros C. destruct b; try discriminate; cbn [sub]; destruct (classlike a); try apply uinh_spec; apply ueqb_spec.
Qed.
Lemma sub_obj a : sub a uobj = true.
Proof. apply sub_cls; [reflexivity|]. destruct (classlike a); [apply ubelow_obj|reflexivity]. Qed.
Lemma below_from_obj b : ubelow uobj b -> b = uobj.
Proof. intros H. apply ubelow_rank in H as [H1 H2]. apply H2. cbn in *. lia. Qed.
Lemma sub_refl a : sub a a = true.
Proof.
  induction a as [c l IH|l IH|t IH|l IH|c| |] using uty_ind'; try (apply sub_cls; [reflexivity|constructor]).
  - apply sub_tup. induction IH; constructor; auto.
  - exact IH.
  - apply sub_un. now left.
Qed.
(** What is below what. *)
Lemma below_tup a m : sub a (UTup m) = true -> exists l, a = UTup l /\ Forall2 (fun x y => sub x y = true) l m.
Proof. destruct a; try discriminate. intros H. apply sub_tup in H. eauto. Qed.
Lemma below_var a u : sub a (UVar u) = true ->
  (exists l, a = UTup l /\ Forall (fun x => sub x u = true) l) \/ (exists t, a = UVar t /\ sub t u = true).
Proof. destruct a; try discriminate; intros H; [left; apply sub_tup_var in H|right; cbn in H]; eauto. Qed.
Lemma obj_below b : sub uobj b = true -> is_un b = false -> b = uobj.
Proof.
  destruct (classlike b) eqn:C; [|destruct b; discriminate]. intros H _. apply sub_cls in H; auto. now apply below_from_obj.
Qed.
Lemma un_below l b : sub (UUn l) b = true -> b = UUn l \/ b = uobj.
Proof.
  destruct (classlike b) eqn:C. { intros H. apply sub_cls in H; auto. }
  destruct b; try discriminate. intros H. apply sub_un in H as [H|(H & _)]; [left; congruence|discriminate].
Qed.
Lemma sub_trans c : forall a b, sub a b = true -> sub b c = true -> sub a c = true.
Proof.
  induction c as [k l IH|m IH|u IH|l IH|k| |] using uty_ind'; intros a b H1 H2.
  2:{ apply below_tup in H2 as (l & -> & F2). apply below_tup in H1 as (k & -> & F1). apply sub_tup.
      revert l k F1 F2. induction m as [|z m IHm]; intros l k F1 F2; inversion F2; subst; inversion F1; subst; constructor.
      - eapply (Forall_inv IH); eauto.
      - eapply IHm; eauto. exact (Forall_inv_tail IH). }
  2:{ apply below_var in H2 as [(l & -> & F2)|(t & -> & F2)].
      - apply below_tup in H1 as (k & -> & F1). apply sub_tup_var. induction F1; constructor; inversion F2; subst; eauto.
      - apply below_var in H1 as [(k & -> & F1)|(s & -> & F1)].
        + apply sub_tup_var. eapply Forall_impl; [|exact F1]. intros x Hx. cbn in *. eauto.
        + cbn [sub]. eauto. }
  2:{ apply sub_un in H2 as [->|(U & O & y & Y1 & Y2)]; [exact H1|].
      apply sub_un. right.
      assert (is_un a = false) as UA.
      { destruct a; try reflexivity. apply un_below in H1 as [->| ->]; [discriminate|congruence]. }
      assert (a <> uobj) as OA. { intros ->. apply O. apply obj_below; auto. }
      repeat split; auto. exists y. split; auto. rewrite Forall_forall in IH. eapply IH; eauto. }
  all: apply sub_cls in H2; [|reflexivity]; apply sub_cls; [reflexivity|];
    destruct (classlike b) eqn:CB;
    [ apply sub_cls in H1; auto; destruct (classlike a); [eapply ubelow_trans; eauto|subst b; now apply below_from_obj]
    | rewrite H2; destruct (classlike a); [apply ubelow_obj|reflexivity] ].
Qed.
Lemma sub_antisym b : forall a, sub a b = true -> sub b a = true -> a = b.
Proof.
  induction b as [k l IH|m IH|u IH|l IH|k| |] using uty_ind'; intros a H1 H2.
  2:{ apply below_tup in H1 as (l & -> & F1). apply sub_tup in H2. f_equal.
      revert l F1 H2. induction m as [|z m IHm]; intros l F1 F2; inversion F1; subst; [reflexivity|]. inversion F2; subst. f_equal.
      - eapply (Forall_inv IH); eauto.
      - eapply IHm; eauto. exact (Forall_inv_tail IH). }
  2:{ apply below_var in H1 as [(l & -> & F1)|(t & -> & F1)]; [discriminate|]. f_equal. apply IH; auto. }
  2:{ apply sub_un in H1 as [->|(U & O & _)]; [reflexivity|]. apply un_below in H2 as [->| ->]; [discriminate|congruence]. }
  all: apply sub_cls in H1; [|reflexivity]; destruct (classlike a) eqn:CA;
    [ apply sub_cls in H2; auto; cbn [classlike] in H2; apply ubelow_rank in H1 as [A1 A2]; apply ubelow_rank in H2 as [B1 B2];
      symmetry; apply A2; lia
    | rewrite H1 in H2 |- *; destruct (is_un a) eqn:UA; [|apply obj_below; auto] ].
  all: destruct a; try discriminate; apply sub_un in H2 as [H2|(_ & H2 & _)]; congruence.
Qed.

(** Direct bases. *)
Definition psuper (a : uty) : option uty :=
  match a with
  | UTup l => if forallb (fun x => ueqb x uobj) l then Some uobj else None
  | UVar _ | UUn _ => None
  | _ => usuper a
  end.
Definition pext (a b : uty) : bool := match psuper a with Some s => ueqb s b | None => false end.
Definition psib (a b : uty) : bool :=
  match psuper a, psuper b with Some s, Some s' => ueqb s s' && negb (ueqb a b) | _, _ => false end.
Lemma pext_spec a b : pext a b = true <-> psuper a = Some b.
Proof. unfold pext. destruct (psuper a); [|split; discriminate]. rewrite ueqb_spec. split; congruence. Qed.
Lemma psib_spec a b : psib a b = true <-> exists s, psuper a = Some s /\ psuper b = Some s /\ a <> b.
Proof.
  unfold psib. destruct (psuper a) as [s|]; [|split; [discriminate|intros (s & K & _); discriminate]].
  destruct (psuper b) as [s'|]; [|split; [discriminate|intros (s2 & _ & K & _); discriminate]].
  rewrite andb_true_iff, ueqb_spec, negb_true_iff. split.
  - intros [-> E]. exists s'. repeat split; auto. intros ->. now rewrite ueqb_refl in E.
  - intros (s2 & [= ->] & [= ->] & N). split; auto. destruct (ueqb a b) eqn:E; auto. apply ueqb_spec in E. contradiction.
Qed.
Lemma psuper_cls a s : psuper a = Some s -> (classlike a = true /\ usuper a = Some s) \/
  (exists l, a = UTup l /\ Forall (fun x => x = uobj) l /\ s = uobj).
Proof.
  destruct a as [c l|l|t|l|c| |]; cbn [psuper]; try discriminate; try (intros H; left; split; [reflexivity|exact H]).
  destruct (forallb _ l) eqn:F; [|discriminate]. intros [= <-]. right. exists l. repeat split; auto.
  apply Forall_forall. intros x Hx. rewrite forallb_forall in F. apply ueqb_spec. auto.
Qed.
Lemma psuper_sub a s : psuper a = Some s -> sub a s = true.
Proof.
  intros H. apply psuper_cls in H as [[C H]|(l & -> & _ & ->)]; [|apply sub_obj].
  assert (classlike s = true) as CS.
  { destruct a as [c l|l|t|l|c| |]; try discriminate; cbn [usuper] in H; try (injection H as <-; reflexivity).
    destruct ((c =? 0) && _); [discriminate|]. destruct (c <? n); [|injection H as <-; reflexivity].
    destruct (c_super (tb c)) as [(p, q)|]; injection H as <-; reflexivity. }
  apply sub_cls; auto. rewrite C. eapply ub_step; eauto. constructor.
Qed.
Lemma same_length_objs l m : Forall (fun x => x = uobj) l -> Forall (fun x => x = uobj) m -> length l = length m -> l = m.
Proof.
  intros F. revert m. induction F as [|x l -> F IH]; intros [|y m] G L; try discriminate; [reflexivity|].
  inversion G; subst. f_equal. apply IH; auto.
Qed.
Lemma usuper_obj a : usuper a = Some uobj -> a <> uobj.
Proof. intros H ->. discriminate. Qed.
Lemma excluded t a b : psib a b = true -> sub t a = true -> sub t b = true -> False.
Proof.
  intros P H1 H2. apply psib_spec in P as (s & A & B & NE).
  apply psuper_cls in A as [[CA A]|(l & -> & FA & EA)]; apply psuper_cls in B as [[CB B]|(m & -> & FB & EB)].
  - apply sub_cls in H1; auto. apply sub_cls in H2; auto. destruct (classlike t).
    + exact (siblings_exclude t a b s A B NE H1 H2).
    + congruence.
  - subst s. apply below_tup in H2 as (k & -> & _). apply sub_cls in H1; auto. cbn in H1. exact (usuper_obj _ A H1).
  - subst s. apply below_tup in H1 as (k & -> & _). apply sub_cls in H2; auto. cbn in H2. exact (usuper_obj _ B H2).
  - apply below_tup in H1 as (k & -> & F1). apply sub_tup in H2. apply NE. f_equal. apply same_length_objs; auto.
    rewrite <- (forall2_length _ _ _ F1). exact (forall2_length _ _ _ H2).
Qed.

(** References: types that objects can have. *)
Definition uref := option uty.
Definition utypeof (r : uref) : uty :=
  match r with
  | None => UApp 1 []
  | Some t => if sub t (UApp 1 []) || ueqb (ubasic t) UUB then uobj else t
  end.
Definition model : interp := {|
  PyType := uty; Ref := uref; null := None; typeof := utypeof;
  extends_ := pext; subtype := sub; isnotsubtype := psib; get_basic := ubasic; union_basic := UUB;
  union_type := UUn; cls_type := UApp; cls_basic := UBas; cls_arg := uarg_of |}.
Definition tmodel : tuples model := {|
  tuple := UTup : list (PyType model) -> PyType model;
  tuple_var := UVar : PyType model -> PyType model;
  tuple_args := fun t : PyType model => match t with UTup l => l | _ => [] end;
  tuple_arg := fun (t : PyType model) i =>
    match t with
    | UTup l => if (0 <=? i)%Z then nth (Z.to_nat i) l uobj else uobj
    | UVar t => t
    | _ => uobj
    end;
  tuple_basic := UTB : PyType model;
  outside := fun _ _ => uobj |}.

Lemma literal_m args t : type_literal model args t = uinst args t.
Proof.
  induction t as [i|c l IH] using texpr_ind'; cbn; auto. f_equal. apply map_ext_in. intros x Hx.
  rewrite Forall_forall in IH. now apply IH.
Qed.
Lemma obj_basic : ubasic uobj = uobj.
Proof. unfold ubasic, uobj. destruct (wf_object _ _ WF) as [_ X]. unfold object_id in X. now rewrite X. Qed.
Lemma obj_not_sub_none : sub uobj (UApp 1 []) = true -> False.
Proof. intros H. apply sub_cls in H; [|reflexivity]. exact (obj_not_none H). Qed.

Lemma model_ok : class_axioms n tb model.
Proof.
  unfold class_axioms. repeat match goal with |- _ /\ _ => split end.
  - intros [c|c|] [d|d|] _ _ H; cbn in H; congruence.
  - intros a b c H. apply andb_prop in H as [H1 H2]. eapply sub_trans; eauto.
  - intros t. apply sub_refl.
  - intros a b H. apply pext_spec in H. now apply psuper_sub.
  - intros r. cbn [subtype typeof cls_type null model]. unfold none_id. destruct r as [t|]; cbn [utypeof].
    + split; [|discriminate]. intros H. exfalso.
      destruct (sub t (UApp 1 [])) eqn:E; cbn [orb] in H; [exact (obj_not_sub_none H)|].
      destruct (ueqb (ubasic t) UUB); [exact (obj_not_sub_none H)|exact (Bool.diff_false_true (eq_trans (eq_sym E) H))].
    + split; intros; [reflexivity|apply sub_refl].
  - intros r. cbn [get_basic typeof union_basic model]. destruct r as [t|]; cbn [utypeof].
    + destruct (sub t (UApp 1 [])); cbn [orb]; [rewrite obj_basic; discriminate|].
      destruct (ueqb (ubasic t) UUB) eqn:E; [rewrite obj_basic; discriminate|]. intros K. rewrite K, ueqb_refl in E. discriminate.
    + cbn. destruct (_ =? 0); discriminate.
  - intros t. apply sub_obj.
  - intros a b s H N. apply andb_prop in H as [H1 H2]. apply pext_spec in H1, H2.
    apply andb_true_intro. split; apply psib_spec; exists s; auto.
  - intros a b H N. apply negb_true_iff. destruct (sub b a) eqn:E; auto. exfalso. apply N. apply sub_antisym; auto.
  - intros a b s H. apply andb_prop in H as [H1 H2].
    apply negb_true_iff. destruct (sub a s) eqn:E; auto. exfalso. exact (excluded a b s H2 H1 E).
  - intros c p l args C S LEN. cbn [extends_ cls_type get_basic model]. split.
    + apply pext_spec. cbn [psuper]. rewrite (class_super _ _ _ _ C S). do 2 f_equal. apply map_ext. intros. symmetry. apply literal_m.
    + reflexivity.
  - intros c args Z i d C LEN L S. cbn [cls_arg subtype cls_type model] in *. apply sub_cls in S; [|reflexivity].
    assert (c <> 0) as NZ by (apply class_nonzero; auto; lia).
    destruct (classlike Z); [|injection S as S _; contradiction].
    rewrite (uarg_spec c args); auto. apply nth_indep. lia.
Qed.
Lemma at_m (s : list (PyType model)) i : at_ model tmodel s i = if (0 <=? i)%Z then nth (Z.to_nat i) s uobj else uobj.
Proof. reflexivity. Qed.
Lemma top_basic l (t : PyType model) : sub (UTup l) t = true -> basic_or_top model tmodel t.
Proof.
  unfold basic_or_top. cbn [get_basic union_basic tuple_basic model tmodel]. unfold object_t. cbn [cls_type model].
  intros H. destruct (classlike t) eqn:C.
  - apply sub_cls in H; auto. cbn in H. subst. right. left. apply obj_basic.
  - destruct t; try discriminate; cbn; auto.
Qed.
Lemma top_basic_var u (t : PyType model) : sub (UVar u) t = true -> basic_or_top model tmodel t.
Proof.
  unfold basic_or_top. cbn [get_basic union_basic tuple_basic model tmodel]. unfold object_t. cbn [cls_type model].
  intros H. destruct (classlike t) eqn:C.
  - apply sub_cls in H; auto. cbn in H. subst. right. left. apply obj_basic.
  - destruct t; try discriminate; cbn; auto.
Qed.
Lemma tmodel_ok : weak_axioms model tmodel n tb.
Proof.
  split; [exact model_ok|]. split.
  { unfold common_axioms. repeat match goal with |- _ /\ _ => split end.
    - intros [c|c|] _; discriminate.
    - intros seq i Z H. cbn [subtype tuple model tmodel] in *. apply below_tup in H as (l & -> & F).
      rewrite at_m. cbn [tuple_arg tmodel]. destruct (0 <=? i)%Z; [|apply sub_refl].
      generalize (Z.to_nat i). induction F as [|x y l m Hxy F IH]; intros [|k]; cbn [nth]; auto using sub_refl.
    - intros seq Z H. cbn [subtype tuple model tmodel tuple_args] in *. apply below_tup in H as (l & -> & F).
      exact (forall2_length _ _ _ F).
    - intros s1 s2 _ L H. cbn [subtype tuple model tmodel] in *. apply sub_tup.
      assert (forall k x y, nth_error s1 k = Some x -> nth_error s2 k = Some y -> sub x y = true) as K.
      { intros k x y E1 E2. rewrite <- (at_nat model tmodel _ _ _ E1), <- (at_nat model tmodel _ _ _ E2). apply H.
        split; [lia|]. assert (k < length s1) by (apply nth_error_Some; congruence). lia. }
      clear H. revert s2 L K. induction s1 as [|x s IH]; intros [|y s2] L K; try discriminate; constructor.
      + apply (K 0); reflexivity.
      + apply IH; [injection L; auto|]. intros i a b. apply (K (S i)).
    - intros args H. cbn [extends_ tuple model tmodel]. unfold object_t. cbn [cls_type model]. apply pext_spec. cbn [psuper].
      replace (forallb (fun x => ueqb x uobj) args) with true; [reflexivity|]. symmetry. apply forallb_forall.
      intros x Hx. apply ueqb_spec. exact (H x Hx).
    - intros t. apply sub_obj.
    - intros t u. reflexivity.
    - intros t s. rewrite (range_all model tmodel (fun x => sub x t = true)). apply sub_tup_var.
    - intros seq Z H. cbn [subtype tuple model tmodel tuple_args] in *. apply below_tup in H as (l & -> & F). apply sub_refl.
    - intros seq Z t H1 H2. cbn [subtype tuple model tmodel] in *. apply below_tup in H1 as (l & -> & _). eapply top_basic; eauto.
    - intros u t Z H1 H2. cbn [subtype tuple_var model tmodel] in *. apply below_var in H1 as [(l & -> & _)|(v & -> & _)].
      + eapply top_basic; eauto.
      + eapply top_basic_var; eauto. }
  split.
  { intros t i Z R H. cbn [subtype tuple_var model tmodel] in *. apply below_var in H as [(l & -> & F)|(u & -> & _)].
    - apply in_range_nth in R as (k & x & -> & E). cbn [tuple_args tmodel] in E. cbn [tuple_arg tmodel].
      replace (0 <=? Z.of_nat k)%Z with true by (symmetry; apply Z.leb_le; lia). rewrite Nat2Z.id.
      rewrite (nth_error_nth _ _ _ E). rewrite Forall_forall in F. apply F. eapply nth_error_In; eauto.
    - destruct R as [R1 R2]. cbn in R2. lia. }
  split.
  { intros seq t _. apply sub_refl. }
  intros args X L B O. cbn [subtype union_type get_basic union_basic model] in *. unfold object_t in O. cbn [cls_type model] in O.
  rewrite fold_or_. cbn [orb]. apply eq_true_iff_eq. rewrite sub_un, existsb_exists. split.
  - intros [->|(_ & _ & H)]; [|exact H]. cbn in B. congruence.
  - intros H. right. repeat split; auto. destruct X; try reflexivity. cbn in B. congruence.
Qed.

(** Every value is the value of some reference. *)
Lemma below_none_app a b : ubelow a b -> none_final n tb -> b = UApp 1 [] -> forall c l, a = UApp c l -> 0 < c < n -> c = 1.
Proof.
  intros H NF. induction H as [a|a s b E H IH]; intros EB c l -> C; [now injection EB|].
  exfalso. destruct (wf_super _ _ WF c C) as (p & q & SP & LT & _).
  rewrite (class_super _ _ _ _ (proj2 C) SP) in E. injection E as <-. subst b.
  destruct p as [|p].
  - assert (q = []) as ->. { destruct (wf_super _ _ WF c C) as (p' & q' & S' & _ & L & _). rewrite SP in S'. injection S' as <- <-.
      destruct (wf_object _ _ WF) as [_ X]. unfold object_id in X. rewrite X in L. now destruct q. }
    cbn in H. pose proof (below_from_obj _ H). discriminate.
  - assert (Datatypes.S p = 1) as E by (eapply (IH eq_refl); [reflexivity|lia]). injection E as ->.
    apply (NF c); [lia|]. unfold superclass. now rewrite SP.
Qed.
Lemma nth_map_error {A B} (f : A -> B) l i x d : nth_error l i = Some x -> nth i (map f l) d = f x.
Proof. revert i. induction l; intros [|i] E; cbn in *; try discriminate; [congruence|auto]. Qed.
Lemma stands_exists v : none_final n tb -> good_val n tb v -> exists r, stands_for model tmodel r v.
Proof.
  intros NF. revert v.
  assert (forall t, wf_texpr n tb 0 t -> denote model t = uinst [] t) as DEN. { intros t _. apply literal_m. }
  fix IH 1. intros v G. destruct v as [t| |l].
  - assert (exists c m, t = TApp c m /\ 0 < c < n /\ c <> 1 /\ wf_texpr n tb 0 t) as (c & m & -> & C & N1 & W).
    { inversion G; subst. exists c, l. match goal with H : wf_texpr _ _ _ _ |- _ => pose proof H as W; inversion W; subst end.
      unfold object_id, none_id in *. repeat split; auto; lia. }
    exists (Some (uinst [] (TApp c m))). constructor. rewrite DEN by auto. cbn [typeof model utypeof uinst].
    destruct (sub _ (UApp 1 [])) eqn:E.
    + apply sub_cls in E; [|reflexivity]. cbn [classlike] in E. exfalso. apply N1.
      eapply below_none_app; [exact E|exact NF|reflexivity|reflexivity|lia].
    + cbn [orb]. destruct (ueqb _ UUB) eqn:E2; [|reflexivity]. apply ueqb_spec in E2. cbn [ubasic] in E2.
      destruct (_ =? 0); discriminate.
  - exists None. constructor.
  - assert (exists rs, Forall2 (stands_for model tmodel) rs l) as (rs & F).
    { assert (Forall (good_val n tb) l) as GL by (inversion G; auto). clear G. induction l as [|v l IHl].
      - exists []. constructor.
      - destruct (IH v) as (r & R). { exact (Forall_inv GL). } destruct IHl as (rs & F). { exact (Forall_inv_tail GL). }
        exists (r :: rs). constructor; auto. }
    exists (Some (UTup (map utypeof rs))).
    apply sf_tuple with (rs := rs); auto; [discriminate|].
    intros i x E. cbn [typeof model utypeof sub ubasic ueqb orb tuple_arg tmodel subtype].
    replace (0 <=? Z.of_nat i)%Z with true by (symmetry; apply Z.leb_le; lia). rewrite Nat2Z.id.
    assert (nth i (map utypeof rs) uobj = utypeof x) as K.
    { exact (nth_map_error utypeof rs i x uobj E). }
    change (sub (utypeof x) (nth i (map utypeof rs) uobj) = true). rewrite K. apply sub_refl.
Qed.
End Cons.
