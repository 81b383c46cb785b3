From Coq Require Import List Bool Arith ZArith Lia.
Import ListNotations.
From Verif Require Import StatModel StatSpec.
Local Open Scope nat_scope.

Lemma look_in {A} x (l : list (nat * A)) a : look x l = Some a -> In (x, a) l.
Proof. induction l as [|(y & b) l IH]; cbn; [discriminate|]. destruct (Nat.eqb_spec y x) as [->|N]; [intros [= ->]; auto|auto]. Qed.
Lemma in_look {A} x (l : list (nat * A)) a : NoDup (map fst l) -> In (x, a) l -> look x l = Some a.
Proof.
  induction l as [|(y & b) l IH]; cbn; [contradiction|]. intros N H. inversion N as [|? ? N1 N2]; subst.
  destruct H as [[= -> ->]|H]; [rewrite Nat.eqb_refl; reflexivity|].
  destruct (Nat.eqb_spec y x) as [->|X]; [|auto]. exfalso. apply N1, in_map_iff. exists (x, a). auto.
Qed.
Lemma look_none {A} x (l : list (nat * A)) : look x l = None <-> ~ In x (map fst l).
Proof.
  induction l as [|(y & b) l IH]; cbn; [tauto|]. destruct (Nat.eqb_spec y x) as [->|X].
  - split; [discriminate|]. intros H. exfalso. apply H. auto.
  - rewrite IH. intuition.
Qed.
Lemma look_some_in {A} x (l : list (nat * A)) : In x (map fst l) -> exists a, look x l = Some a.
Proof. intros H. destruct (look x l) eqn:E; [eauto|]. apply look_none in E. contradiction. Qed.

Section Fix.
  Variable P : prog.
  Hypothesis ON : once P.
  Hypothesis UA : updates_apart P.
  Hypothesis SC : scoped P.

  Lemma class_of_in c sup fs : class_of P c = Some (sup, fs) <-> In (SClass c sup fs) P.
  Proof.
    unfold class_of. split.
    - intros H. apply look_in, in_flat_map in H. destruct H as (t & T & H). destruct t; cbn in H; try tauto.
      destruct H as [[= -> -> ->]|[]]. exact T.
    - intros H. apply in_look.
      + destruct ON as (N & _). clear -N. induction P as [|t Q IH]; cbn in *; [constructor|].
        rewrite map_app. destruct t; cbn in *; auto. inversion N as [|? ? N1 N2]; subst. constructor; [|auto].
        intros X. apply N1. clear -X. induction Q as [|t Q IH]; cbn in *; [contradiction|].
        rewrite map_app in X. apply in_or_app. apply in_app_or in X. destruct X as [X|X]; [left|right; auto].
        destruct t; cbn in *; auto.
      + apply in_flat_map. exists (SClass c sup fs). cbn. auto.
  Qed.
  Lemma glob_of_in x e : glob_of P x = Some e -> In (SGlob x e) P.
  Proof.
    unfold glob_of. intros H. apply look_in, in_flat_map in H. destruct H as (t & T & H). destruct t; cbn in H; try tauto.
    destruct H as [[= -> ->]|[]]. exact T.
  Qed.
  Lemma type_of_in o c : In (SNew o c) P -> type_of P o = Some c.
  Proof.
    intros H. unfold type_of. apply in_look.
    - destruct ON as (_ & _ & N & _). clear -N. induction P as [|t Q IH]; cbn in *; [constructor|].
      rewrite map_app. destruct t; cbn in *; auto. inversion N as [|? ? N1 N2]; subst. constructor; [|auto].
      intros X. apply N1. clear -X. induction Q as [|t Q IH]; cbn in *; [contradiction|].
      rewrite map_app in X. apply in_or_app. apply in_app_or in X. destruct X as [X|X]; [left|right; auto].
      destruct t; cbn in *; auto.
    - apply in_flat_map. exists (SNew o c). cbn. auto.
  Qed.
  Lemma in_type_of o c : type_of P o = Some c -> In (SNew o c) P.
  Proof.
    unfold type_of. intros H. apply look_in, in_flat_map in H. destruct H as (t & T & H). destruct t; cbn in H; try tauto.
    destruct H as [[= -> ->]|[]]. exact T.
  Qed.
  Lemma own_in c x : own P c x = true <-> exists sup fs, In (SClass c sup fs) P /\ In x (map fst fs).
  Proof.
    unfold own. destruct (class_of P c) as [(sup & fs)|] eqn:E.
    - apply class_of_in in E as E'. destruct (look x fs) as [e|] eqn:L; split; try discriminate.
      + intros _. exists sup, fs. split; [exact E'|]. apply look_in in L. apply (in_map fst) in L. exact L.
      + auto.
      + intros (sup2 & fs2 & H & X). apply class_of_in in H. rewrite E in H. injection H as <- <-.
        apply look_none in L. contradiction.
    - split; [discriminate|]. intros (sup2 & fs2 & H & X). apply class_of_in in H. congruence.
  Qed.
  Lemma nearest_own n c x d : nearest_ P n c x = Some d -> own P d x = true.
  Proof.
    revert c. induction n as [|n IH]; cbn [nearest_]; intros c H; [discriminate|].
    destruct (own P c x) eqn:O; [congruence|].
    destruct (class_of P c) as [([s|] & fs)|]; try discriminate. eauto.
  Qed.
  Lemma own_nearest c x : own P c x = true -> nearest P c x = Some c.
  Proof. intros H. unfold nearest. cbn [nearest_]. rewrite H. reflexivity. Qed.

  Lemma final_spec c x : final P c x = false <-> updated P c x.
  Proof.
    unfold final, updated. rewrite negb_false_iff, existsb_exists. split.
    - intros (t & T & H). destruct t as [| |d y e| | |]; try discriminate. apply andb_true_iff in H. destruct H as (H1 & H2).
      apply Nat.eqb_eq in H1 as ->. destruct (proj1 UA d x) as (sup & fs & z & I & X); [exists e; exact T|].
      rewrite own_nearest in H2 by (apply own_in; exists sup, fs; split; [exact I|apply (in_map fst) in X; exact X]).
      apply Nat.eqb_eq in H2 as ->. eauto.
    - intros (e & T). exists (SSet c x e). split; [exact T|]. rewrite Nat.eqb_refl.
      destruct (proj1 UA c x) as (sup & fs & z & I & X); [exists e; exact T|].
      rewrite own_nearest by (apply own_in; exists sup, fs; split; [exact I|apply (in_map fst) in X; exact X]).
      apply Nat.eqb_refl.
  Qed.

  (** Values by rank. *)
  Variable rank : option nat -> nat -> nat.
  Hypothesis R1 : forall c d fs x, In (SClass c (Some d) fs) P -> ~ In x (map fst fs) -> rank (Some d) x <= rank (Some c) x.
  Hypothesis R2 : forall x e d y, In (SGlob x e) P -> mentions P None e d y -> rank d y < rank None x.
  Hypothesis R3 : forall c sup fs x e d y, In (SClass c sup fs) P -> In (x, e) fs -> mentions P (Some c) e d y ->
       (d = None -> ~ In y (map fst fs)) -> rank d y < rank (Some c) x.

  (** A reference for fields without permission. *)
  Definition lits : list Z :=
    flat_map (fun t => match t with
                       | SClass _ _ fs => flat_map (fun p => match snd p with EInt z => [z] | _ => [] end) fs
                       | _ => [] end) P.
  Definition fresh : Z := (1 + fold_right Z.max 0 lits)%Z.
  Lemma fresh_new c sup fs x z : In (SClass c sup fs) P -> In (x, EInt z) fs -> z <> fresh.
  Proof.
    intros I X. assert (H : In z lits).
    { apply in_flat_map. exists (SClass c sup fs). split; [exact I|]. apply in_flat_map. exists (x, EInt z). cbn. auto. }
    assert (z <= fold_right Z.max 0 lits)%Z; [|unfold fresh; lia].
    induction lits as [|a l IH]; [contradiction|]. destruct H as [->|H]; cbn [fold_right]; [lia|]. specialize (IH H). lia.
  Qed.

  Definition Gof (V : option nat -> nat -> Z) (x : nat) : Z := V None x.
  Definition Fof (V : option nat -> nat -> Z) (r x c : nat) : Z :=
    match nearest P c x with Some d => if (c =? d) || final P d x then V (Some d) x else fresh | None => 0%Z end.
  Definition value_of (v : option nat) (x : nat) : option expr :=
    match v with None => glob_of P x | Some c => field_value P c x end.
  Fixpoint val (n : nat) (v : option nat) (x : nat) : Z :=
    match n with
    | O => 0%Z
    | S m => match value_of v x with Some e => ieval P (Gof (val m)) (Fof (val m)) v e | None => 0%Z end
    end.

  Lemma rank_near n c x d : nearest_ P n c x = Some d -> rank (Some d) x <= rank (Some c) x.
  Proof.
    revert c. induction n as [|n IH]; cbn [nearest_]; intros c H; [discriminate|].
    destruct (own P c x) eqn:O; [injection H as <-; lia|].
    destruct (class_of P c) as [([s|] & fs)|] eqn:E; try discriminate.
    apply class_of_in in E. apply IH in H. etransitivity; [exact H|]. apply (R1 _ _ _ _ E).
    intros X. assert (own P c x = true) by (apply own_in; eauto). congruence.
  Qed.

  Lemma ieval_ext V V' cs e :
    (forall d y, mentions P cs e d y -> (d = None -> forall c, cs = Some c -> own P c y = false) ->
       match d with None => V None y = V' None y | Some c => forall r, Fof V r y c = Fof V' r y c end) ->
    ieval P (Gof V) (Fof V) cs e = ieval P (Gof V') (Fof V') cs e.
  Proof.
    induction e as [z|x|c x|o x|a IHa b IHb|a IHa b IHb]; intros H; cbn [ieval].
    - reflexivity.
    - destruct cs as [c|].
      + destruct (own P c x) eqn:O.
        * unfold static. rewrite (own_nearest _ _ O). apply own_in in O as O'. destruct O' as (sup & fs & I & X).
          apply (H (Some c) x (m_field P _ _ _ _ I X)). discriminate.
        * apply (H None x (m_name P _ _)). intros _ c' [= <-]. exact O.
      + apply (H None x (m_name P _ _)). discriminate.
    - unfold static. destruct (nearest P c x); [|reflexivity]. apply (H (Some c) x (m_stat P _ _ _)). discriminate.
    - destruct (type_of P o) as [c|] eqn:T; [|reflexivity]. unfold static. destruct (nearest P c x); [|reflexivity].
      apply (H (Some c) x (m_inst P _ _ _ _ (in_type_of _ _ T))). discriminate.
    - rewrite IHa, IHb; [reflexivity| |]; intros d y M X; apply H; auto; [apply m_addr|apply m_addl]; exact M.
    - rewrite IHa, IHb; [reflexivity| |]; intros d y M X; apply H; auto; [apply m_eqr|apply m_eql]; exact M.
  Qed.

  Lemma value_of_mentions v x e d y : value_of v x = Some e -> mentions P v e d y ->
    (d = None -> forall c, v = Some c -> own P c y = false) -> rank d y < rank v x.
  Proof.
    destruct v as [c|]; cbn [value_of]; intros E M X.
    - unfold field_value in E. destruct (class_of P c) as [(sup & fs)|] eqn:C; [|discriminate].
      apply class_of_in in C. apply look_in in E. eapply R3; eauto.
      intros -> Y. specialize (X eq_refl _ eq_refl). assert (own P c y = true) by (apply own_in; eauto). congruence.
    - apply glob_of_in in E. eapply R2; eauto.
  Qed.

  Lemma val_stable n : forall m v x, rank v x < n -> rank v x < m -> val n v x = val m v x.
  Proof.
    induction n as [|n IH]; intros m v x A B; [lia|]. destruct m as [|m]; [lia|]. cbn [val].
    destruct (value_of v x) as [e|] eqn:E; [|reflexivity].
    apply ieval_ext. intros d y M X. pose proof (value_of_mentions _ _ _ _ _ E M X) as R.
    destruct d as [c|].
    - intros r. unfold Fof. destruct (nearest P c y) as [d|] eqn:N; [|reflexivity].
      destruct ((c =? d) || final P d y); [|reflexivity].
      apply rank_near in N. apply IH; lia.
    - apply IH; lia.
  Qed.

  Definition V (v : option nat) (x : nat) : Z := val (S (rank v x)) v x.
  Definition G := Gof V.
  Definition F := Fof V.

  Lemma V_eq v x e : value_of v x = Some e -> V v x = ieval P G F v e.
  Proof.
    intros E. unfold V. cbn [val]. rewrite E. apply ieval_ext. intros d y M X.
    pose proof (value_of_mentions _ _ _ _ _ E M X) as R. destruct d as [c|].
    - intros r. unfold Fof. destruct (nearest P c y) as [d|] eqn:N; [|reflexivity].
      destruct ((c =? d) || final P d y); [|reflexivity].
      apply rank_near in N. unfold V. apply val_stable; lia.
    - unfold V. apply val_stable; lia.
  Qed.

  Lemma F_own r c x : own P c x = true -> F r x c = V (Some c) x.
  Proof. intros O. unfold F, Fof. rewrite (own_nearest _ _ O), Nat.eqb_refl. reflexivity. Qed.

  Lemma statics_hold : static_axioms P G F.
  Proof.
    intros c x d e N E. rewrite (F_own _ _ _ (nearest_own _ _ _ _ N)). apply V_eq. exact E.
  Qed.
  Lemma globs_hold : glob_axioms P G F.
  Proof. intros x e E _. apply V_eq. exact E. Qed.

  Local Arguments V _ _ : simpl never.
  (** Updated fields have their own references. *)
  Lemma V_lit c x : updated P c x -> exists sup fs z, In (SClass c sup fs) P /\ In (x, EInt z) fs /\ V (Some c) x = z.
  Proof.
    intros U. destruct (proj1 UA c x U) as (sup & fs & z & I & X). exists sup, fs, z. split; [exact I|]. split; [exact X|].
    rewrite (V_eq (Some c) x (EInt z)); [reflexivity|]. cbn [value_of]. unfold field_value.
    apply class_of_in in I as I'. rewrite I'. apply in_look; [|exact X]. destruct ON as (_ & _ & _ & N). eapply N; eauto.
  Qed.
  Lemma V_apart c x c' x' : updated P c x -> updated P c' x' -> V (Some c) x = V (Some c') x' -> c = c' /\ x = x'.
  Proof.
    intros U U' E. destruct (V_lit _ _ U) as (sup & fs & z & A & B & C). destruct (V_lit _ _ U') as (sup' & fs' & z' & A' & B' & C').
    rewrite C, C' in E. subst z'. eapply (proj1 (proj2 UA)); eauto.
  Qed.
  Lemma V_fresh c x : updated P c x -> V (Some c) x <> fresh.
  Proof. intros U. destruct (V_lit _ _ U) as (sup & fs & z & A & B & ->). eapply fresh_new; eauto. Qed.
  Lemma upd_own c x : updated P c x -> own P c x = true.
  Proof. intros U. destruct (proj1 UA c x U) as (sup & fs & z & I & X). apply own_in. exists sup, fs. split; [exact I|]. apply (in_map fst) in X. exact X. Qed.

  (** The state of the verifier describes that of Python. *)
  Notation read_static := (read_static P F).
  Notation veval := (veval P G F).
  (** The value of the field x of the class c. *)
  Definition cur (st : vstate) (c x : nat) : Z := if final P c x then V (Some c) x else hp st (V (Some c) x).
  Definition fact (s : env) (st : vstate) (c : nat) : Prop :=
    exists k fs, look c (clss s) = Some k /\ In (SClass c (p_sup k) fs) P /\
      (forall x, look x (p_dict k) = if own P c x then Some (cur st c x) else None) /\
      (forall x, own P c x = true -> final P c x = final P (root P c x) x).
  (** The classes so far, the later ones first. *)
  Fixpoint ordered (l : list nat) : Prop :=
    match l with
    | [] => True
    | c :: l' => ordered l' /\ match class_of P c with Some (Some d, _) => In d l' | Some (None, _) => True | None => False end
    end.
  Record rel (s : env) (st : vstate) (L : list nat) : Prop := {
    r_glob : forall x, nms st x = true -> is_global P x -> look x (globs s) = Some (G x);
    r_cls : forall c, ncl st c = true -> In c L;
    r_ord : ordered L;
    r_fact : forall c, In c L -> fact s st c;
    r_len : length L <= length (clss s);
    r_pm : forall r, pm st r = true -> exists c x, updated P c x /\ r = V (Some c) x;
    r_obj : forall o, nob st o = true -> exists c, In (SNew o c) P /\ look o (objs s) = Some {| p_cls := c; p_attrs := [] |} /\ In c L
  }.

  Lemma near_suffix m s st l : forall n c x d, ordered l -> (forall c, In c l -> fact s st c) ->
    In c l -> length l <= n -> nearest_ P m c x = Some d -> In d l /\ class_attr n s c x = Some (cur st d x).
  Proof.
    revert m. induction l as [|c0 l IH]; intros m n c x d OL LK I LE N; [contradiction|].
    cbn [ordered] in OL. destruct OL as (O1 & O2). cbn [length] in LE. destruct n as [|n]; [lia|].
    destruct (Nat.eq_dec c0 c) as [->|NE].
    - destruct (LK c (or_introl eq_refl)) as (k & fs & K1 & K2 & K3 & _). cbn [class_attr]. rewrite K1, K3.
      apply class_of_in in K2. rewrite K2 in O2.
      destruct m as [|m]; [discriminate|]. cbn [nearest_] in N. destruct (own P c x) eqn:O; [injection N as <-; split; [left|]; reflexivity|].
      rewrite K2 in N. destruct (p_sup k) as [s0|]; [|discriminate].
      destruct (IH m n s0 x d) as (A & B); auto; [intros c' I'; apply LK; right; exact I'|lia|]. split; [right; exact A|exact B].
    - assert (I' : In c l) by (destruct I; congruence).
      destruct (IH m (S n) c x d) as (A & B); auto; [intros c' J; apply LK; right; exact J|lia|]. split; [right; exact A|exact B].
  Qed.
  Lemma read_near s st L c x z : rel s st L -> In c L -> read_static st c x = Some z -> attr s c x = Some z.
  Proof.
    intros R I E. unfold StatModel.read_static in E. destruct (nearest P c x) as [d|] eqn:N; [|discriminate].
    destruct (near_suffix (S (length P)) s st L (S (length (clss s))) c x d (r_ord _ _ _ R) (r_fact _ _ _ R) I) as (D & A); [pose proof (r_len _ _ _ R); lia|exact N|].
    unfold attr. rewrite A. destruct (r_fact _ _ _ R d D) as (k & fs & _ & _ & _ & FF).
    rewrite <- (FF x (nearest_own _ _ _ _ N)) in E. unfold cur. unfold F, Fof in E. rewrite N in E.
    destruct (final P d x) eqn:FD.
    - rewrite orb_true_r in E. exact E.
    - rewrite orb_false_r in E. destruct (Nat.eqb_spec c d) as [->|NE].
      + destruct (pm st (V (Some d) x)); [exact E|discriminate].
      + destruct (pm st fresh) eqn:PF; [|discriminate]. exfalso. destruct (r_pm _ _ _ R _ PF) as (c' & x' & U & EQ).
        exact (V_fresh _ _ U (eq_sym EQ)).
  Qed.

  Lemma veval_eval s st L cs loc e z : rel s st L ->
    (forall y, In y (names_in e) ->
       match cs with
       | Some c => (own P c y = true /\ final P c y = final P (root P c y) y /\ look y loc = Some (cur st c y)) \/
                   (own P c y = false /\ look y loc = None /\ is_global P y)
       | None => look y loc = None /\ is_global P y
       end) ->
    veval cs st e = Some z -> eval s loc e = Some z.
  Proof.
    intros R. revert z. induction e as [k|x|c x|o x|a IHa b IHb|a IHa b IHb]; intros z H E; cbn [StatModel.veval eval] in *.
    - exact E.
    - destruct (nms st x) eqn:N; [|discriminate]. specialize (H x (or_introl eq_refl)). destruct cs as [c|].
      + destruct H as [(O & FF & L0)|(O & L0 & I)]; rewrite O in E; rewrite L0.
        * unfold StatModel.read_static in E. rewrite (own_nearest _ _ O), <- FF, (F_own _ _ _ O) in E. unfold cur.
          destruct (final P c x); [exact E|]. destruct (pm st _); [exact E|discriminate].
        * rewrite (r_glob _ _ _ R x N I). exact E.
      + destruct H as (L0 & I). rewrite L0, (r_glob _ _ _ R x N I). exact E.
    - destruct (ncl st c) eqn:N; [|discriminate]. eapply read_near; eauto. apply (r_cls _ _ _ R _ N).
    - destruct (type_of P o) as [c|] eqn:T; [|discriminate]. destruct (nob st o) eqn:N; [|discriminate].
      destruct (own P c x) eqn:O; [|discriminate]. cbn in E.
      destruct (r_obj _ _ _ R _ N) as (c' & I & L0 & IC). apply type_of_in in I. rewrite T in I. injection I as <-.
      unfold obj_attr. rewrite L0. cbn. eapply read_near; eauto.
    - destruct (veval cs st a) as [p|] eqn:A; [|discriminate]. destruct (veval cs st b) as [q|] eqn:B; [|discriminate].
      rewrite (IHa p), (IHb q); auto; intros y Y; apply H; cbn; apply in_or_app; auto.
    - destruct (veval cs st a) as [p|] eqn:A; [|discriminate]. destruct (veval cs st b) as [q|] eqn:B; [|discriminate].
      rewrite (IHa p), (IHb q); auto; intros y Y; apply H; cbn; apply in_or_app; auto.
  Qed.

  Hypothesis SEP : separate P.

  Lemma read_ieval st c x z : static_ok P c x = true -> read_static st c x = Some z -> static P F c x = z.
  Proof.
    unfold static_ok, StatModel.read_static, static. destruct (nearest P c x); [|discriminate]. intros ->. congruence.
  Qed.
  Lemma veval_ieval cs st e z : pure P cs e = true -> veval cs st e = Some z -> ieval P G F cs e = z.
  Proof.
    revert z. induction e as [k|x|c x|o x|a IHa b IHb|a IHa b IHb]; intros z Pu E; cbn [StatModel.veval ieval StatModel.pure] in *.
    - congruence.
    - destruct (nms st x); [|discriminate]. destruct cs as [c|]; [|congruence]. destruct (own P c x) eqn:O; [|congruence].
      eapply read_ieval; eauto.
    - destruct (ncl st c); [|discriminate]. eapply read_ieval; eauto.
    - destruct (type_of P o) as [c|]; [|discriminate]. apply andb_true_iff in Pu. destruct (nob st o && own P c x); [|discriminate].
      eapply read_ieval; [apply Pu|exact E].
    - apply andb_true_iff in Pu. destruct Pu. destruct (veval cs st a) as [p|]; [|discriminate]. destruct (veval cs st b) as [q|]; [|discriminate].
      rewrite (IHa p), (IHb q); congruence.
    - apply andb_true_iff in Pu. destruct Pu. destruct (veval cs st a) as [p|]; [|discriminate]. destruct (veval cs st b) as [q|]; [|discriminate].
      rewrite (IHa p), (IHb q); congruence.
  Qed.
  (** Values of global variables do not depend on the heap. *)
  Lemma final_name c x : (forall c', ~ updated P c' x) -> final P c x = true.
  Proof. intros H. destruct (final P c x) eqn:E; [reflexivity|]. apply final_spec in E. destruct (H _ E). Qed.
  Lemma glob_pure st e z : (forall d x c, mentions P None e (Some d) x -> ~ updated P c x) -> veval None st e = Some z -> pure P None e = true.
  Proof.
    revert z. induction e as [k|x|c x|o x|a IHa b IHb|a IHa b IHb]; intros z H E; cbn [StatModel.veval StatModel.pure] in *; auto.
    - destruct (ncl st c); [|discriminate]. unfold StatModel.read_static in E. unfold static_ok.
      destruct (nearest P c x); [|discriminate]. apply final_name. intros c'. apply (H c x c'). constructor.
    - destruct (type_of P o) as [c|] eqn:T; [|discriminate]. destruct (nob st o); [|discriminate]. destruct (own P c x); [|discriminate].
      cbn in *. unfold StatModel.read_static in E. unfold static_ok.
      destruct (nearest P c x); [|discriminate]. apply final_name. intros c'. apply (H c x c'). constructor. apply in_type_of. exact T.
    - destruct (veval None st a) as [p|]; [|discriminate]. destruct (veval None st b) as [q|]; [|discriminate].
      rewrite (IHa p), (IHb q); auto; intros d x c M; apply (H d x c); [apply m_addr|apply m_addl]; exact M.
    - destruct (veval None st a) as [p|]; [|discriminate]. destruct (veval None st b) as [q|]; [|discriminate].
      rewrite (IHa p), (IHb q); auto; intros d x c M; apply (H d x c); [apply m_eqr|apply m_eql]; exact M.
  Qed.

  Lemma cur_ext st st' c x : hp st' = hp st -> cur st' c x = cur st c x.
  Proof. unfold cur. intros ->. reflexivity. Qed.
  Lemma fact_ext s st st' c : hp st' = hp st -> fact s st c -> fact s st' c.
  Proof.
    intros E (k & fs & A & B & C & D). exists k, fs. split; [exact A|]. split; [exact B|]. split; [|exact D].
    intros x. rewrite C, (cur_ext st st' c x E). reflexivity.
  Qed.
  Lemma rel_def s st L x : rel s st L -> is_static P x -> rel s (def_name x st) L.
  Proof.
    intros R H. constructor; cbn; try apply R.
    intros y Y I. unfold updn in Y.
    destruct (Nat.eqb_spec y x) as [E|E]; [exfalso; rewrite E in I; exact (SEP _ I H)|]. apply (r_glob _ _ _ R); auto.
  Qed.

  (** Permissions are those of the updated fields of the classes so far. *)
  Definition owned (st : vstate) (L : list nat) : Prop := forall r, pm st r = true -> exists c x, In c L /\ updated P c x /\ r = V (Some c) x.

  Lemma give_all s c sup fs0 L (CI : In (SClass c sup fs0) P) (NL : ~ In c L) : forall fs fs1 st Q, fs0 = fs1 ++ fs ->
    rel s st L -> (forall r, pm st r = true -> exists c' x, (In c' L \/ c' = c /\ In x (map fst fs1)) /\ updated P c' x /\ r = V (Some c') x) ->
    StatModel.give P F c fs st Q ->
    exists st', Q st' /\ rel s st' L /\ owned st' (c :: L).
  Proof.
    induction fs as [|(x & e) fs IH]; intros fs1 st Q EQ R PM W; cbn [StatModel.give] in W.
    - exists st. split; [exact W|]. split; [exact R|]. intros r H. destruct (PM r H) as (c' & x & A & B). exists c', x. cbn. intuition.
    - assert (EQ' : fs0 = (fs1 ++ [(x, e)]) ++ fs) by (rewrite <- app_assoc; exact EQ).
      destruct (final P c x) eqn:FC.
      + apply (IH (fs1 ++ [(x, e)]) st Q EQ' R); [|exact W]. intros r H. destruct (PM r H) as (c' & x' & A & B). exists c', x'.
        rewrite map_app, in_app_iff. intuition.
      + destruct W as (_ & W). apply final_spec in FC. rewrite (F_own _ _ _ (upd_own _ _ FC)) in W.
        assert (NP : pm st (V (Some c) x) = false).
        { destruct (pm st (V (Some c) x)) eqn:E; [|reflexivity]. exfalso. destruct (PM _ E) as (c' & x' & A & U & EV).
          destruct (V_apart _ _ _ _ FC U EV) as (<- & <-). destruct A as [A|(_ & A)]; [contradiction|].
          destruct ON as (_ & _ & _ & N). specialize (N _ _ _ CI). rewrite EQ, map_app in N. cbn in N.
          apply NoDup_remove_2 in N. apply N, in_or_app. left. exact A. }
        apply (IH (fs1 ++ [(x, e)]) _ Q EQ') with (3 := W NP).
        * constructor; cbn; try apply R.
          intros r. unfold updz. destruct (Z.eqb_spec r (V (Some c) x)) as [->|]; [eauto|apply (r_pm _ _ _ R)].
        * cbn. intros r. unfold updz. destruct (Z.eqb_spec r (V (Some c) x)) as [->|].
          -- intros _. exists c, x. rewrite map_app, in_app_iff. cbn. split; [right; split; auto|auto].
          -- intros H. destruct (PM r H) as (c' & x' & A & B). exists c', x'. rewrite map_app, in_app_iff. intuition.
  Qed.

  Definition put (r z : Z) (st : vstate) : vstate := {| hp := updz (hp st) r z; pm := pm st; nms := nms st; ncl := ncl st; nob := nob st |}.
  Lemma cur_put st c x z c' x' : updated P c x -> (c', x') <> (c, x) -> cur (put (V (Some c) x) z st) c' x' = cur st c' x'.
  Proof.
    intros U NE. unfold cur. destruct (final P c' x') eqn:FC; [reflexivity|]. apply final_spec in FC. cbn. unfold updz.
    destruct (Z.eqb_spec (V (Some c') x') (V (Some c) x)) as [E|]; [|reflexivity]. destruct (V_apart _ _ _ _ FC U E). congruence.
  Qed.
  Lemma cur_put_same st c x z : updated P c x -> cur (put (V (Some c) x) z st) c x = z.
  Proof. intros U. unfold cur. rewrite (proj2 (final_spec c x) U). cbn. unfold updz. rewrite Z.eqb_refl. reflexivity. Qed.

  Hypothesis PURE : forall c x e, field_value P c x = Some e -> pure P (Some c) e = true.

  Lemma body_run c sup fs0 L (CI : In (SClass c sup fs0) P) (NL : ~ In c L) : forall fs fs1 s st loc Q,
    fs0 = fs1 ++ fs -> rel s st L ->
    (forall x, look x loc = if existsb (Nat.eqb x) (map fst fs1) then Some (cur st c x) else None) ->
    (forall x, In x (map fst fs1) -> final P c x = final P (root P c x) x) ->
    StatModel.wp_body P G F c fs st Q ->
    exists loc' st', body s loc fs = Some loc' /\ rel s st' L /\ Q st' /\ pm st' = pm st /\
      (forall x, look x loc' = if own P c x then Some (cur st' c x) else None) /\
      (forall x, own P c x = true -> final P c x = final P (root P c x) x).
  Proof.
    induction fs as [|(x & e) fs IH]; intros fs1 s st loc Q EQ R LO FF W; cbn [StatModel.wp_body body] in *.
    - assert (OE : forall x, own P c x = existsb (Nat.eqb x) (map fst fs1)).
      { intros x. rewrite app_nil_r in EQ. subst fs1. destruct (existsb (Nat.eqb x) (map fst fs0)) eqn:E.
        + apply existsb_exists in E. destruct E as (y & Y & E). apply Nat.eqb_eq in E as ->. apply own_in; eauto.
        + destruct (own P c x) eqn:O; [|reflexivity]. exfalso. apply own_in in O. destruct O as (sup' & fs' & I & X).
          apply class_of_in in I. apply class_of_in in CI. rewrite CI in I. injection I as <- <-.
          assert (existsb (Nat.eqb x) (map fst fs0) = true) by (apply existsb_exists; exists x; split; [exact X|apply Nat.eqb_refl]). congruence. }
      exists loc, st. do 4 (split; [solve [auto]|]). split.
      + intros x. rewrite LO, OE. reflexivity.
      + intros x O. apply FF. rewrite OE in O. apply existsb_exists in O. destruct O as (y & Y & E). apply Nat.eqb_eq in E as ->. exact Y.
    - destruct (veval (Some c) st e) as [z|] eqn:E; [|contradiction].
      assert (NE : forall y, In y (names_in e) -> (own P c y = true /\ final P c y = final P (root P c y) y /\ look y loc = Some (cur st c y)) \/ (own P c y = false /\ look y loc = None /\ is_global P y)).
      { intros y Y. subst fs0. destruct (proj2 SC _ _ _ _ _ _ _ CI Y) as [I|(NI & IG)].
        - left. split; [apply own_in; do 2 eexists; split; [exact CI|rewrite map_app; apply in_or_app; auto]|]. split; [apply FF; exact I|].
          rewrite LO. assert (existsb (Nat.eqb y) (map fst fs1) = true) as ->; [|reflexivity].
          apply existsb_exists. exists y. split; [exact I|apply Nat.eqb_refl].
        - right. split; [|split; [|exact IG]].
          + destruct (own P c y) eqn:O; [|reflexivity]. exfalso. apply own_in in O. destruct O as (sup' & fs' & I & X).
            apply class_of_in in I. apply class_of_in in CI. rewrite CI in I. injection I as <- <-. contradiction.
          + rewrite LO. destruct (existsb (Nat.eqb y) (map fst fs1)) eqn:EE; [|reflexivity]. exfalso.
            apply existsb_exists in EE. destruct EE as (y' & Y' & EE). apply Nat.eqb_eq in EE as <-.
            apply NI. rewrite map_app. apply in_or_app. auto. }
      rewrite (veval_eval s st L (Some c) loc e z R NE E).
      assert (IX : In x (map fst fs0)) by (subst fs0; rewrite map_app; apply in_or_app; right; left; reflexivity).
      assert (OX : own P c x = true) by (apply own_in; eauto).
      assert (SX : is_static P x) by (exists c, sup, fs0; auto).
      assert (FV : field_value P c x = Some e).
      { unfold field_value. apply class_of_in in CI as CI'. rewrite CI'. apply in_look.
        - destruct ON as (_ & _ & _ & N). eapply N; eauto.
        - subst fs0. apply in_or_app. right. left. reflexivity. }
      assert (VX : V (Some c) x = z).
      { rewrite <- (veval_ieval _ _ _ _ (PURE _ _ _ FV) E). apply V_eq. exact FV. }
      assert (NX : ~ In x (map fst fs1)).
      { intros X. destruct ON as (_ & _ & _ & N). specialize (N _ _ _ CI). rewrite EQ, map_app in N. cbn in N.
        apply NoDup_remove_2 in N. apply N, in_or_app. left. exact X. }
      assert (EQ' : fs0 = (fs1 ++ [(x, e)]) ++ fs) by (rewrite <- app_assoc; exact EQ).
      assert (LO' : forall st', cur st' c x = z -> (forall y, y <> x -> cur st' c y = cur st c y) ->
        forall y, look y ((x, z) :: loc) = if existsb (Nat.eqb y) (map fst (fs1 ++ [(x, e)])) then Some (cur st' c y) else None).
      { intros st' C1 C2 y. cbn [look]. rewrite map_app, existsb_app. cbn [map fst existsb]. rewrite orb_false_r.
        destruct (Nat.eqb_spec x y) as [<-|NE2].
        * rewrite Nat.eqb_refl, orb_true_r, C1. reflexivity.
        * rewrite (proj2 (Nat.eqb_neq y x)) by congruence. rewrite orb_false_r, LO, C2 by congruence. reflexivity. }
      assert (FF' : final P c x = final P (root P c x) x -> forall y, In y (map fst (fs1 ++ [(x, e)])) -> final P c y = final P (root P c y) y).
      { intros H y. rewrite map_app, in_app_iff. intros [Y|[<-|[]]]; [apply FF; exact Y|exact H]. }
      destruct (final P c x) eqn:FC.
      + destruct W as (FR & W). rewrite (F_own _ _ _ OX) in W.
        destruct (IH (fs1 ++ [(x, e)]) s (def_name x st) ((x, z) :: loc) Q EQ') as (loc' & st' & A & B & C & D & D' & D2).
        * apply rel_def; [exact R|exact SX].
        * apply LO'; [unfold cur; rewrite FC; exact VX|intros y _; apply cur_ext; reflexivity].
        * apply FF'. congruence.
        * apply W. exact VX.
        * exists loc', st'. auto 10.
      + unfold store in W. rewrite (own_nearest _ _ OX), FC in W. destruct W as (_ & FR & PMR & W). apply final_spec in FC.
        rewrite (F_own _ _ _ OX) in W. fold (put (V (Some c) x) z st) in W.
        destruct (IH (fs1 ++ [(x, e)]) s (def_name x (put (V (Some c) x) z st)) ((x, z) :: loc) Q EQ') as (loc' & st' & A & B & C & D & D' & D2).
        * apply rel_def; [|exact SX]. constructor; cbn; try apply R. intros c' C'.
          destruct (r_fact _ _ _ R c' C') as (k & fs' & K1 & K2 & K3 & K4). exists k, fs'. split; [exact K1|]. split; [exact K2|]. split; [|exact K4].
          intros y. rewrite K3, cur_put; [reflexivity|exact FC|]. intros [= -> _]. contradiction.
        * apply LO'.
          -- rewrite (cur_ext (put (V (Some c) x) z st)) by reflexivity. apply cur_put_same. exact FC.
          -- intros y Y. rewrite (cur_ext (put (V (Some c) x) z st)) by reflexivity. apply cur_put; [exact FC|congruence].
        * apply FF'. congruence.
        * exact W.
        * exists loc', st'. auto 10.
  Qed.

  Lemma step_ok t s st L Q : In t P -> (forall c sup fs, t = SClass c sup fs -> ~ In c L) -> rel s st L -> owned st L -> StatModel.wp P G F t st Q ->
    exists s' st', exec t s = Some s' /\ Q st' /\
      rel s' st' (match t with SClass c _ _ => [c] | _ => [] end ++ L) /\ owned st' (match t with SClass c _ _ => [c] | _ => [] end ++ L).
  Proof.
    intros T NC R OW W. destruct t as [c sup fs|x e|c x e|o c|o x e|e]; cbn [StatModel.wp exec app] in *.
    - destruct W as (WS & W). pose proof (NC _ _ _ eq_refl) as NL.
      assert (OW0 : forall r, pm st r = true -> exists c' x, (In c' L \/ c' = c /\ In x (map fst (@nil (nat * expr)))) /\ updated P c' x /\ r = V (Some c') x).
      { intros r H. destruct (OW r H) as (c' & x & A & B). exists c', x. auto. }
      destruct (give_all s c sup fs L T NL fs [] st _ eq_refl R OW0 W) as (st1 & W1 & R1' & OW1).
      assert (exists u, (match sup with Some d => look d (clss s) | None => Some {| p_sup := None; p_dict := [] |} end) = Some u) as (u & ->).
      { destruct sup as [d|]; [|eauto]. destruct (r_fact _ _ _ R _ (r_cls _ _ _ R _ WS)) as (k & _ & K & _). eauto. }
      destruct (body_run c sup fs L T NL fs [] s st1 [] _ eq_refl R1' (fun _ => eq_refl) (fun _ (H : In _ []) => match H with end) W1) as (loc & st' & B & R' & Q' & N1 & LO & FF).
      rewrite B. cbn [option_map]. eexists _, _. split; [reflexivity|]. split; [exact Q'|]. split.
      + constructor; cbn.
        * intros y. apply (r_glob _ _ _ R').
        * intros d. unfold updn. destruct (Nat.eqb_spec d c) as [->|]; [auto|]. intros D. right. apply (r_cls _ _ _ R' _ D).
        * split; [apply (r_ord _ _ _ R')|]. apply class_of_in in T as T'. rewrite T'.
          destruct sup as [d|]; [|exact Logic.I]. apply (r_cls _ _ _ R _ WS).
        * intros d [<-|D].
          -- exists {| p_sup := sup; p_dict := loc |}, fs. cbn. rewrite Nat.eqb_refl. split; [reflexivity|]. split; [exact T|].
             split; [|exact FF]. intros x. rewrite LO. reflexivity.
          -- destruct (r_fact _ _ _ R' d D) as (k & fs' & K1 & K2 & K3 & K4). exists k, fs'. cbn.
             destruct (Nat.eqb_spec c d) as [->|]; [contradiction|]. auto.
        * pose proof (r_len _ _ _ R'). lia.
        * apply (r_pm _ _ _ R').
        * intros o O. destruct (r_obj _ _ _ R' _ O) as (c' & A & B' & C'). exists c'. auto.
      + intros r H. cbn in H. rewrite N1 in H. apply (OW1 r H).
    - destruct (veval None st e) as [z|] eqn:E; [|contradiction].
      assert (NE : forall y, In y (names_in e) -> look y (@nil (nat * Z)) = None /\ is_global P y).
      { intros y Y. split; [reflexivity|]. apply (proj1 SC _ e y T); eauto. }
      rewrite (veval_eval s st L None [] e z R NE E). cbn [option_map].
      assert (GX : G x = z).
      { rewrite <- (veval_ieval None st e z); [|apply (glob_pure st e z); [|exact E]; intros d y c M; exact (proj1 (proj2 (proj2 UA)) _ _ _ _ _ T M)|exact E].
        apply (V_eq None). cbn [value_of]. unfold glob_of. apply in_look.
        - destruct ON as (_ & N & _). clear -N. induction P as [|t Q IH]; cbn in *; [constructor|].
          rewrite map_app. destruct t; cbn in *; auto. inversion N as [|? ? N1 N2]; subst. constructor; [|auto].
          intros X. apply N1. clear -X. induction Q as [|t Q IH]; cbn in *; [contradiction|].
          rewrite map_app in X. apply in_or_app. apply in_app_or in X. destruct X as [X|X]; [left|right; auto].
          destruct t; cbn in *; auto.
        - apply in_flat_map. exists (SGlob x e). cbn. auto. }
      eexists _, _. split; [reflexivity|]. split; [exact (W GX)|]. split; [|exact OW].
      constructor; cbn; try apply R.
      intros y Y I. unfold updn in Y. rewrite (Nat.eqb_sym y x) in Y.
        destruct (Nat.eqb_spec x y) as [EE|EE]; [subst y; change (Some z = Some (G x)); rewrite GX; reflexivity|]. apply (r_glob _ _ _ R); auto.
    - destruct (veval None st e) as [z|] eqn:E; [|contradiction]. destruct W as (N & W).
      assert (NE : forall y, In y (names_in e) -> look y (@nil (nat * Z)) = None /\ is_global P y).
      { intros y Y. split; [reflexivity|]. apply (proj1 SC _ e y T); eauto 8. }
      rewrite (veval_eval s st L None [] e z R NE E).
      assert (U : updated P c x) by (exists e; exact T). pose proof (upd_own _ _ U) as O.
      unfold store in W. rewrite (own_nearest _ _ O) in W. destruct W as (_ & _ & PMR & W). rewrite (F_own _ _ _ O) in W.
      fold (put (V (Some c) x) z st) in W.
      destruct (r_fact _ _ _ R c (r_cls _ _ _ R _ N)) as (k & fs & K1 & K2 & K3 & K4). rewrite K1.
      eexists _, _. split; [reflexivity|]. split; [exact W|]. split; [|exact OW].
      assert (SX : is_static P x).
      { apply own_in in O. destruct O as (sup' & fs' & I & X). exists c, sup', fs'. auto. }
      apply rel_def; [|exact SX]. constructor; cbn; try apply R.
      + intros d D. destruct (Nat.eq_dec c d) as [<-|NE2].
        * exists {| p_sup := p_sup k; p_dict := (x, z) :: p_dict k |}, fs. cbn. rewrite Nat.eqb_refl. split; [reflexivity|]. split; [exact K2|].
          split; [|exact K4]. intros y. destruct (Nat.eqb_spec x y) as [<-|NE2].
          -- rewrite O, cur_put_same by exact U. reflexivity.
          -- rewrite K3, cur_put; [reflexivity|exact U|congruence].
        * destruct (r_fact _ _ _ R d D) as (k' & fs' & K1' & K2' & K3' & K4'). exists k', fs'. cbn.
          rewrite (proj2 (Nat.eqb_neq c d)) by congruence. split; [exact K1'|]. split; [exact K2'|]. split; [|exact K4'].
          intros y. rewrite K3', cur_put; [reflexivity|exact U|congruence].
      + pose proof (r_len _ _ _ R). lia.
    - destruct W as (N & W). pose proof (r_cls _ _ _ R _ N) as I. destruct (r_fact _ _ _ R _ I) as (k & fs & K & _). rewrite K. cbn [option_map].
      eexists _, _. split; [reflexivity|]. split; [exact W|]. split; [|exact OW].
      constructor; cbn; try apply R. intros o' O. unfold updn in O. rewrite (Nat.eqb_sym o' o) in O.
      destruct (Nat.eqb_spec o o') as [EE|EE].
      + subst o'. exists c. auto.
      + apply (r_obj _ _ _ R _ O).
    - exfalso. destruct (veval None st e); [|contradiction]. destruct (type_of P o) as [c|]; [|contradiction].
      destruct W as (_ & OO & W). unfold store in W. rewrite (own_nearest _ _ OO) in W.
      destruct W as (W & _). apply final_spec in W. exact (proj2 (proj2 (proj2 UA)) _ _ _ _ T W).
    - destruct W as (z & E & NZ & W).
      assert (NE : forall y, In y (names_in e) -> look y (@nil (nat * Z)) = None /\ is_global P y).
      { intros y Y. split; [reflexivity|]. apply (proj1 SC _ e y T); eauto. }
      rewrite (veval_eval s st L None [] e z R NE E). destruct (Z.eqb_spec z 0); [contradiction|].
      eexists _, _. split; [reflexivity|]. split; [exact W|]. split; [exact R|exact OW].
  Qed.

  Definition classes (Q : prog) : list nat := flat_map (fun t => match t with SClass c _ _ => [c] | _ => [] end) Q.
  Lemma run_ok Q : forall Q0 s st L, P = Q0 ++ Q -> (forall c, In c L -> In c (classes Q0)) ->
    rel s st L -> owned st L -> StatModel.wps P G F Q st -> exists s', run Q s = Some s'.
  Proof.
    induction Q as [|t Q IH]; intros Q0 s st L EQ CL R OW W; cbn [StatModel.wps run] in *; [eauto|].
    assert (T : In t P) by (rewrite EQ; apply in_or_app; right; left; reflexivity).
    assert (NC : forall c sup fs, t = SClass c sup fs -> ~ In c L).
    { intros c sup fs -> H. apply CL in H. destruct ON as (N & _). rewrite EQ, flat_map_app in N. cbn in N.
      apply NoDup_remove_2 in N. apply N, in_or_app. left. exact H. }
    destruct (step_ok t s st L _ T NC R OW W) as (s' & st' & E & W' & R' & OW').
    rewrite E. refine (IH (Q0 ++ [t]) s' st' _ _ _ R' OW' W').
    - rewrite <- app_assoc. exact EQ.
    - intros c C. unfold classes. rewrite flat_map_app. apply in_or_app. apply in_app_or in C.
      destruct C as [C|C]; [right; cbn; rewrite app_nil_r; exact C|left; apply CL; exact C].
  Qed.
End Fix.

Theorem statics_fine P : verifies P -> well_behaved P -> runs_fine P.
Proof.
  intros (PU & VF) (ON & UA & SEP & SC & (rank & R1 & R2 & R3)).
  specialize (VF (G P rank) (F P rank) (fun _ => 0%Z) (statics_hold P ON rank R1 R2 R3) (globs_hold P ON rank R1 R2 R3)).
  assert (R : rel P rank empty {| hp := fun _ => 0%Z; pm := fun _ => false; nms := fun _ => false; ncl := fun _ => false; nob := fun _ => false |} []).
  { constructor; cbn; try discriminate; try contradiction; auto. }
  refine (run_ok P ON UA SC rank R1 R2 R3 SEP PU P [] _ _ [] eq_refl _ R _ VF).
  - contradiction.
  - intros r. discriminate.
Qed.

Lemma no_updates_apart P : no_updates P -> updates_apart P.
Proof. intros H. split; [|split; [|split]]; [intros c x (e & U)|intros c x c' x' sup fs sup' fs' z (e & U)|intros y e d x c _ _ (e' & U)|intros o x e c _ (e' & U)]; destruct (H _ _ _ U). Qed.
