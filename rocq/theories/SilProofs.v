From Coq Require Import List ZArith Bool Lia.
From Verif Require Import SilModel SilSpec.
Import ListNotations.
Open Scope Z_scope.

Lemma gtb_lt : forall a b, (b <? a) = (a >? b).
Proof. intros. rewrite Z.gtb_ltb. reflexivity. Qed.
Lemma geb_le : forall a b, (b <=? a) = (a >=? b).
Proof. intros. rewrite Z.geb_leb. reflexivity. Qed.

Lemma get_value_mean : forall s e z, get_value e = Some z -> imean s e = z.
Proof. intros s e z H. destruct e; simpl in H; inversion H; reflexivity. Qed.

Lemma cmp_true_mean : forall s cmp a b, cmp_true cmp a b = true -> cmp (imean s a) (imean s b) = true.
Proof.
  intros s cmp a b. unfold cmp_true.
  destruct (get_value a) eqn:A; [|discriminate]. destruct (get_value b) eqn:B; [|discriminate].
  rewrite (get_value_mean s _ _ A), (get_value_mean s _ _ B). auto.
Qed.

Lemma cmp_false_mean : forall s cmp a b, cmp_false cmp a b = true -> cmp (imean s a) (imean s b) = false.
Proof.
  intros s cmp a b. unfold cmp_false.
  destruct (get_value a) eqn:A; [|discriminate]. destruct (get_value b) eqn:B; [|discriminate].
  rewrite (get_value_mean s _ _ A), (get_value_mean s _ _ B). apply negb_true_iff.
Qed.

Lemma always_false_mean : forall s e, is_always_false e = true -> bmean s e = false.
Proof.
  intros s e H. destruct e; simpl in *; try discriminate; try reflexivity;
    try (apply cmp_false_mean; assumption).
  destruct es; [reflexivity|discriminate].
Qed.

Lemma always_true_mean : forall s e, is_always_true e = true -> bmean s e = true.
Proof.
  intros s. fix IH 1. intros e H.
  destruct e; simpl in *; try discriminate; try reflexivity;
    try (apply cmp_true_mean; assumption).
  - destruct es; [reflexivity|discriminate].
  - apply orb_true_iff in H. destruct H as [H|H].
    + rewrite (always_false_mean s _ H). reflexivity.
    + rewrite (IH _ H). destruct (bmean s e1); reflexivity.
Qed.

(** join_expressions is the right-nested combination. *)
Fixpoint rjoin {T} (op : T -> T -> T) (x : T) (l : list T) : T :=
  match l with [] => x | y :: l' => op x (rjoin op y l') end.

Lemma join_rjoin : forall T (op : T -> T -> T) l x,
  join_expressions op (x :: l) = Some (rjoin op x l).
Proof.
  intros T op. unfold join_expressions.
  assert (G : forall l (y : T) x, match rev (x :: l ++ [y]) with [] => None
      | last :: before => Some (fold_left (fun r p => op p r) before last) end
      = Some (rjoin op x (l ++ [y]))).
  { intros l y x. simpl rev. rewrite rev_app_distr. simpl.
    f_equal. revert x. induction l as [|z l IH]; intros x; simpl; [reflexivity|].
    rewrite fold_left_app. simpl. f_equal. apply IH. }
  intros l x. destruct l as [|z l] using rev_ind; [reflexivity|]. apply G.
Qed.

Lemma rjoin_add : forall s l x, vieval s (rjoin VAdd x l)
  = vieval s x + fold_right Z.add 0 (map (vieval s) l).
Proof. intros s. induction l as [|y l IH]; intros x; simpl; [lia|]. rewrite IH. lia. Qed.

Lemma rjoin_and : forall s l x, vbeval s (rjoin VAnd x l) = vbeval s x && forallb (vbeval s) l.
Proof.
  intros s. induction l as [|y l IH]; intros x; simpl; [rewrite andb_true_r; reflexivity|].
  rewrite IH. reflexivity.
Qed.

Lemma rjoin_or : forall s l x, vbeval s (rjoin VOr x l) = vbeval s x || existsb (vbeval s) l.
Proof.
  intros s. induction l as [|y l IH]; intros x; simpl; [rewrite orb_false_r; reflexivity|].
  rewrite IH. reflexivity.
Qed.

Section Main.
  Variable s : state.

  Definition keep_true := fix go (l : list bexp) : list vbexp :=
    match l with
    | [] => []
    | x :: l' => if is_always_true x then go l' else btrans x :: go l'
    end.
  Definition keep_false := fix go (l : list bexp) : list vbexp :=
    match l with
    | [] => []
    | x :: l' => if is_always_false x then go l' else btrans x :: go l'
    end.

  Fixpoint itrans_ok (e : iexp) : vieval s (itrans e) = imean s e
  with btrans_ok (e : bexp) : vbeval s (btrans e) = bmean s e.
  Proof.
    - destruct e; simpl; try reflexivity.
      + rewrite (itrans_ok e1), (itrans_ok e2); reflexivity.
      + rewrite (itrans_ok e1), (itrans_ok e2); reflexivity.
      + assert (H : map (vieval s) (map itrans es) = map (imean s) es).
        { induction es as [|x es IH]; simpl; [reflexivity|]. rewrite (itrans_ok x), IH. reflexivity. }
        destruct es as [|x es]; [reflexivity|].
        simpl map at 1. rewrite join_rjoin, rjoin_add.
        simpl in H. inversion H as [[H1 H2]]. simpl. rewrite H1. f_equal. rewrite H2. reflexivity.
      + rewrite (itrans_ok e); reflexivity.
      + rewrite (btrans_ok c), (itrans_ok e1), (itrans_ok e2); reflexivity.
    - destruct e; simpl; try reflexivity.
      + rewrite (btrans_ok e); reflexivity.
      + rewrite (btrans_ok e1), (btrans_ok e2); reflexivity.
      + fold keep_true.
        assert (H : forallb (vbeval s) (keep_true es) = forallb (bmean s) es).
        { induction es as [|x es IH]; simpl; [reflexivity|].
          destruct (is_always_true x) eqn:A.
          - rewrite (always_true_mean s _ A). exact IH.
          - simpl. rewrite (btrans_ok x), IH. reflexivity. }
        destruct (keep_true es) as [|x l]; [exact H|].
        rewrite join_rjoin, rjoin_and. exact H.
      + fold keep_false.
        assert (H : existsb (vbeval s) (keep_false es) = existsb (bmean s) es).
        { induction es as [|x es IH]; simpl; [reflexivity|].
          destruct (is_always_false x) eqn:A.
          - rewrite (always_false_mean s _ A). exact IH.
          - simpl. rewrite (btrans_ok x), IH. reflexivity. }
        destruct (keep_false es) as [|x l]; [exact H|].
        rewrite join_rjoin, rjoin_or. exact H.
      + rewrite (btrans_ok e1), (btrans_ok e2), (btrans_ok e3); reflexivity.
      + destruct (is_always_true e1) eqn:A.
        * rewrite (btrans_ok e2), (always_true_mean s _ A). reflexivity.
        * simpl. rewrite (btrans_ok e1), (btrans_ok e2). destruct (bmean s e1); reflexivity.
      + rewrite (itrans_ok a), (itrans_ok b). apply gtb_lt.
      + rewrite (itrans_ok a), (itrans_ok b). apply geb_le.
      + rewrite (itrans_ok a), (itrans_ok b). reflexivity.
      + rewrite (itrans_ok a), (itrans_ok b). reflexivity.
      + rewrite (itrans_ok a), (itrans_ok b). reflexivity.
      + rewrite (itrans_ok a), (itrans_ok b). reflexivity.
      + rewrite (btrans_ok e1), (btrans_ok e2). reflexivity.
      + rewrite (btrans_ok e1), (btrans_ok e2). reflexivity.
  Qed.
End Main.

Definition omean (s : state) (o : operand) : Z :=
  match o with PInt z => z | Node e => imean s e end.

Lemma py_add_ok : forall s a o, vieval s (itrans (py_add a o)) = imean s a + omean s o.
Proof. intros s a o. rewrite itrans_ok. destruct a, o; reflexivity. Qed.
Lemma py_sub_ok : forall s a o, vieval s (itrans (py_sub a o)) = imean s a - omean s o.
Proof. intros s a o. rewrite itrans_ok. destruct a, o; reflexivity. Qed.
Lemma auto_box_ok : forall s o, imean s (auto_box o) = omean s o.
Proof. intros s []; reflexivity. Qed.
Lemma py_cmp_ok : forall s a o,
  vbeval s (btrans (py_gt a o)) = (imean s a >? omean s o) /\
  vbeval s (btrans (py_ge a o)) = (imean s a >=? omean s o) /\
  vbeval s (btrans (py_lt a o)) = (imean s a <? omean s o) /\
  vbeval s (btrans (py_le a o)) = (imean s a <=? omean s o).
Proof. intros. rewrite !btrans_ok. simpl. rewrite auto_box_ok. auto. Qed.

Lemma cond_inc_ok : forall s c v,
  vieval s (itrans (CondInc c v)) = imean s v + (if bmean s c then 1 else 0).
Proof.
  intros. rewrite itrans_ok. unfold CondInc. simpl.
  rewrite <- (itrans_ok s (py_add v (PInt 1))), py_add_ok. simpl.
  destruct (bmean s c); lia.
Qed.
