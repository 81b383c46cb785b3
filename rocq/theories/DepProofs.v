(** Proofs about the dependencies of calls. *)
From Coq Require Import List Arith Lia Bool String.
From Verif Require Import ModModel ModProofs DepModel DepSpec.
Import ListNotations.

Lemma dep_eqb_ok : forall a b, dep_eqb a b = true <-> a = b.
Proof.
  intros [i r t m c] [i' r' t' m' c']. unfold dep_eqb, nats_eqb. cbn [ref rname target rmod conds].
  rewrite !andb_true_iff, !Nat.eqb_eq, gname_eqb_ok. destruct (list_eq_dec Nat.eq_dec c c') as [->|N].
  - split; [intros [[[[-> ->] ->] ->] _]; reflexivity|intros [= -> -> -> ->]; repeat split; reflexivity].
  - split; [intros [_ H]; discriminate|intros [= -> -> -> -> ->]; congruence].
Qed.
Lemma dep_in : forall d l, existsb (dep_eqb d) l = true <-> In d l.
Proof.
  intros d l. rewrite existsb_exists. split.
  - intros (x & I & E). apply dep_eqb_ok in E. subst. exact I.
  - intros I. exists d. split; [exact I|apply dep_eqb_ok; reflexivity].
Qed.
Lemma dep_not_in : forall d l, existsb (dep_eqb d) l = false <-> ~ In d l.
Proof. intros d l. rewrite <- dep_in, not_true_iff_false. reflexivity. Qed.

Definition extend (d : dep) (p : list nat) : dep :=
  {| ref := ref d; rname := rname d; target := target d; rmod := rmod d; conds := p ++ conds d |}.
Lemma extend_nil : forall d, extend d [] = d.
Proof. intros []. reflexivity. Qed.

Section Deps.
  Context (P : decls).

  Definition step (f : nat) (p : list nat) (acc : option (list dep)) (d : dep) : option (list dep) :=
    match acc with
    | None => None
    | Some res =>
        if existsb (dep_eqb d) res then Some res
        else
          let res1 := match conds d with [] => extend d p :: res | _ => res end in
          if has_add_all P (target d) then add_all P f (call_deps P (target d)) res1 (p ++ conds d)
          else Some res1
    end.

  Lemma add_all_S : forall f l res p, add_all P (S f) l res p = fold_left (step f p) l (Some res).
  Proof.
    intros f l res p. cbn [add_all]. generalize (Some res). clear res. induction l as [|d l IH]; intros acc; [reflexivity|].
    cbn [fold_left]. rewrite IH. f_equal. destruct acc as [res|]; [|reflexivity]. unfold step.
    destruct (existsb (dep_eqb d) res); [reflexivity|]. destruct d as [i r t m [|c cs]]; cbn [conds]; unfold extend; cbn [ref rname target rmod conds].
    - rewrite app_nil_r. reflexivity.
    - reflexivity.
  Qed.

  Lemma step_none : forall f p l, fold_left (step f p) l None = None.
  Proof. intros f p l. induction l as [|d l IH]; [reflexivity|exact IH]. Qed.

  Lemma add_all_cons : forall f d l res p res', add_all P (S f) (d :: l) res p = Some res' ->
    exists res2, step f p (Some res) d = Some res2 /\ add_all P (S f) l res2 p = Some res'.
  Proof.
    intros f d l res p res' H. rewrite add_all_S in H. cbn [fold_left] in H.
    destruct (step f p (Some res) d) as [res2|] eqn:E; [|rewrite step_none in H; discriminate].
    exists res2. split; [reflexivity|]. rewrite add_all_S. exact H.
  Qed.

  Lemma add_all_incl : forall f l res p res', add_all P f l res p = Some res' -> incl res res'.
  Proof.
    induction f as [|f IH]; intros l res p res' H; [discriminate|]. revert res H.
    induction l as [|d l IHl]; intros res H.
    - rewrite add_all_S in H. injection H as <-. apply incl_refl.
    - apply add_all_cons in H. destruct H as (res2 & E & H). apply IHl in H. intros x I. apply H. clear H.
      unfold step in E. destruct (existsb (dep_eqb d) res); [injection E as <-; exact I|].
      set (res1 := match conds d with [] => extend d p :: res | _ => res end) in E.
      assert (In x res1) by (unfold res1; destruct (conds d); [right|]; exact I).
      destruct (has_add_all P (target d)); [apply IH in E; exact (E x H)|injection E as <-; exact H].
  Qed.

  (** *** The names needed by dependencies *)
  Section Needs.
    Context (D : nat -> gname -> bool).
    Definition active (p : list nat) : Prop := forall c, In c p -> D (module_of P c) (name_of P c) = true.

    Lemma active_app : forall p q, active (p ++ q) <-> active p /\ active q.
    Proof.
      intros p q. unfold active. split.
      - intros H. split; intros c I; apply H, in_or_app; tauto.
      - intros [H1 H2] c I. apply in_app_or in I. destruct I; auto.
    Qed.

    Lemma dep_holds_ok : forall d, dep_holds P D d = true <-> (active (conds d) -> D (rmod d) (rname d) = true).
    Proof.
      intros d. unfold dep_holds. generalize (D (rmod d) (rname d)). generalize (conds d). clear d.
      induction l as [|c l IH]; intros b; cbn [fold_left].
      - split; [auto|]. intros H. apply H. intros c [].
      - rewrite IH. split.
        + intros H A. assert (A1 := A c (or_introl eq_refl)). rewrite A1 in H. apply H. intros x I. apply A. right. exact I.
        + intros H A. destruct (D (module_of P c) (name_of P c)) eqn:E; [|reflexivity]. cbn [implb]. apply H.
          intros x [<-|I]; [exact E|exact (A x I)].
    Qed.

    Inductive dep_needs : dep -> nat * gname -> Prop :=
    | dn_here : forall d, conds d = [] -> dep_needs d (rmod d, rname d)
    | dn_step : forall d d' k, active (conds d) -> has_add_all P (target d) = true -> In d' (call_deps P (target d)) ->
        dep_needs d' k -> dep_needs d k.

    (** Nothing is added that is not needed. *)
    Lemma add_all_needed : forall f l res p res', add_all P f l res p = Some res' ->
      forall e, In e res' -> In e res \/ (active (conds e) -> exists d, In d l /\ dep_needs d (rmod e, rname e)).
    Proof.
      intros f l res p res' H.
      enough (G : forall e, In e res' -> In e res \/ (exists q, conds e = p ++ q /\
                (active q -> exists d, In d l /\ dep_needs d (rmod e, rname e)))).
      { intros e I. destruct (G e I) as [J|(q & Q & J)]; [left; exact J|right]. intros A. apply J.
        rewrite Q in A. apply active_app in A. exact (proj2 A). }
      revert l res p res' H. induction f as [|f IH]; intros l res p res' H; [discriminate|]. revert res H.
      induction l as [|d l IHl]; intros res H e I.
      - rewrite add_all_S in H. injection H as <-. left. exact I.
      - apply add_all_cons in H. destruct H as (res2 & E & H).
        destruct (IHl _ H e I) as [J|(q & Q & J)].
        + unfold step in E. destruct (existsb (dep_eqb d) res); [injection E as <-; left; exact J|].
          set (res1 := match conds d with [] => extend d p :: res | _ => res end) in E.
          assert (K : In e res1 -> In e res \/ (exists q, conds e = p ++ q /\
                        (active q -> exists d0, In d0 (d :: l) /\ dep_needs d0 (rmod e, rname e)))).
          { unfold res1. intros K. destruct (conds d) eqn:C; [|left; exact K]. destruct K as [<-|K]; [|left; exact K].
            right. exists []. split; [cbn [extend conds]; rewrite C; reflexivity|]. intros _. exists d. split; [left; reflexivity|].
            cbn [extend rmod rname]. apply dn_here. exact C. }
          destruct (has_add_all P (target d)) eqn:HA; [|injection E as <-; exact (K J)].
          destruct (IH _ _ _ _ E e J) as [L|(q & Q & L)]; [exact (K L)|]. right. exists (conds d ++ q).
          split; [rewrite Q, app_assoc; reflexivity|]. intros A. apply active_app in A. destruct A as [A1 A2].
          destruct (L A2) as (d' & I' & N). exists d. split; [left; reflexivity|]. eapply dn_step; eassumption.
        + right. exists q. split; [exact Q|]. intros A. destruct (J A) as (d' & I' & N). exists d'. split; [right; exact I'|exact N].
    Qed.

    (** *** Everything needed is added *)
    Inductive covered (res : list dep) : dep -> list nat -> Prop :=
    | cov_in : forall d p, conds d = [] -> In d res -> covered res d p
    | cov_do : forall d p, (conds d = [] -> In (extend d p) res) ->
        (forall d', has_add_all P (target d) = true -> In d' (call_deps P (target d)) -> covered res d' (p ++ conds d)) ->
        covered res d p.

    Lemma covered_mono : forall res res' d p, incl res res' -> covered res d p -> covered res' d p.
    Proof.
      intros res res' d p J H. induction H as [d p C I|d p C _ IH].
      - apply cov_in; [exact C|]. apply J. exact I.
      - apply cov_do; [intros E; apply J, C, E|]. intros d' A I. apply IH; assumption.
    Qed.

    (** Only entries without conditions of their own are added. *)
    Definition sane (d : dep) : Prop := conds d <> [] -> kind_of P (target d) = DMethod.
    Definition named (d : dep) : Prop := kind_of P (target d) <> DMethod.
    Definition bare_sane (d : dep) : Prop := conds d = [] -> named d.

    Context (SD : forall t d, In d (call_deps P t) -> sane d /\ bare_sane d).

    Lemma add_all_named : forall f l res p res', add_all P f l res p = Some res' ->
      (forall d, In d l -> sane d /\ bare_sane d) -> Forall named res -> Forall named res'.
    Proof.
      induction f as [|f IH]; intros l res p res' H; [discriminate|]. revert res H.
      induction l as [|d l IHl]; intros res H S F.
      - rewrite add_all_S in H. injection H as <-. exact F.
      - apply add_all_cons in H. destruct H as (res2 & E & H). apply (IHl _ H).
        { intros x I. apply S. right. exact I. }
        unfold step in E. destruct (existsb (dep_eqb d) res); [injection E as <-; exact F|].
        set (res1 := match conds d with [] => extend d p :: res | _ => res end) in E.
        assert (F1 : Forall named res1).
        { unfold res1. destruct (conds d) eqn:C; [|exact F]. constructor; [|exact F].
          destruct (S d (or_introl eq_refl)) as [_ B]. exact (B C). }
        destruct (has_add_all P (target d)); [|injection E as <-; exact F1].
        apply (IH _ _ _ _ E); [|exact F1]. intros x I. exact (SD _ _ I).
    Qed.

    Definition complete_at (res : list dep) (e : dep) : Prop :=
      forall d', has_add_all P (target e) = true -> In d' (call_deps P (target e)) -> covered res d' [].

    Lemma add_all_covered : forall f l res p res', add_all P f l res p = Some res' ->
      (forall d, In d l -> sane d /\ bare_sane d) -> Forall named res ->
      (forall d, In d l -> covered res' d p) /\
      (forall e, In e res' -> conds e = [] -> In e res \/ complete_at res' e).
    Proof.
      induction f as [|f IH]; intros l res p res' H; [discriminate|]. revert res H.
      induction l as [|d l IHl]; intros res H S F.
      - rewrite add_all_S in H. injection H as <-. split; [intros d []|]. intros e I _. left. exact I.
      - apply add_all_cons in H. destruct H as (res2 & E & H).
        assert (S' : forall x, In x l -> sane x /\ bare_sane x) by (intros x I; apply S; right; exact I).
        pose proof (add_all_incl _ _ _ _ _ H) as INC.
        assert (K : Forall named res2 /\ covered res2 d p /\ forall e, In e res2 -> conds e = [] -> In e res \/ complete_at res2 e).
        { unfold step in E. destruct (existsb (dep_eqb d) res) eqn:M.
          - injection E as <-. split; [exact F|]. apply dep_in in M. split; [|intros e I _; left; exact I].
            destruct (conds d) as [|c cs] eqn:C.
            + apply cov_in; assumption.
            + exfalso. assert (N := proj1 (Forall_forall _ _) F d M). apply N. apply (proj1 (S d (or_introl eq_refl))). rewrite C. discriminate.
          - set (res1 := match conds d with [] => extend d p :: res | _ => res end) in E.
            assert (F1 : Forall named res1).
            { unfold res1. destruct (conds d) eqn:C; [|exact F]. constructor; [|exact F].
              destruct (S d (or_introl eq_refl)) as [_ B]. exact (B C). }
            assert (R1 : conds d = [] -> In (extend d p) res1) by (unfold res1; intros ->; left; reflexivity).
            assert (R2 : forall e, In e res1 -> conds e = [] -> In e res \/ (e = extend d p /\ p = [] /\ conds d = [])).
            { unfold res1. intros e I C. destruct (conds d) eqn:CD; [|left; exact I]. destruct I as [<-|I]; [|left; exact I].
              right. split; [reflexivity|]. cbn [extend conds] in C. rewrite CD, app_nil_r in C. split; [exact C|reflexivity]. }
            destruct (has_add_all P (target d)) eqn:HA.
            + destruct (IH _ _ _ _ E (fun x I => SD _ _ I) F1) as [C1 C2].
              split; [exact (add_all_named _ _ _ _ _ E (fun x I => SD _ _ I) F1)|].
              pose proof (add_all_incl _ _ _ _ _ E) as INC1.
              split.
              * apply cov_do; [intros C; apply INC1, R1, C|]. intros d' _ I. apply C1. exact I.
              * intros e I C. destruct (C2 e I C) as [J|J]; [|right; exact J].
                destruct (R2 e J C) as [J1|(-> & -> & CD)]; [left; exact J1|]. right. intros d' _ I'. cbn [extend target] in I'.
                specialize (C1 d' I'). rewrite CD in C1. exact C1.
            + injection E as <-. split; [exact F1|]. split.
              * apply cov_do; [exact R1|]. intros d' A. congruence.
              * intros e I C. destruct (R2 e I C) as [J1|(-> & -> & CD)]; [left; exact J1|]. right. intros d' A. cbn [extend target] in A. congruence. }
        destruct K as (F2 & C2 & Q2). destruct (IHl _ H S' F2) as [A B]. split.
        + intros x [<-|I]; [|exact (A x I)]. apply (covered_mono res2); assumption.
        + intros e I C. destruct (B e I C) as [J|J]; [|right; exact J].
          destruct (Q2 e J C) as [J1|J1]; [left; exact J1|]. right. intros d' A' I'. apply (covered_mono res2); [exact INC|]. exact (J1 d' A' I').
    Qed.

    Lemma covered_defined : forall res, forallb (dep_holds P D) res = true ->
      (forall e, In e res -> conds e = [] -> complete_at res e) ->
      forall d k, dep_needs d k -> forall p, covered res d p -> active p -> D (fst k) (snd k) = true.
    Proof.
      intros res H CL d k N. induction N as [d C|d d' k A HA I N IH]; intros p CV AP.
      - cbn [fst snd]. assert (HD := proj1 (forallb_forall _ _) H). inversion CV as [d0 p0 _ J|d0 p0 J _]; subst d0 p0.
        + apply HD in J. apply (proj1 (dep_holds_ok d) J). rewrite C. intros c [].
        + specialize (J C). apply HD in J. apply (proj1 (dep_holds_ok (extend d p)) J). cbn [extend conds].
          rewrite C, app_nil_r. exact AP.
      - inversion CV as [d0 p0 C J|d0 p0 _ J]; subst d0 p0.
        + apply (IH []); [exact (CL d J C d' HA I)|]. intros c [].
        + apply (IH (p ++ conds d)); [exact (J d' HA I)|]. apply active_app. split; assumption.
    Qed.

    Theorem add_all_exact : forall f l res, add_all P f l [] [] = Some res -> (forall d, In d l -> sane d /\ bare_sane d) ->
      (forallb (dep_holds P D) res = true <-> forall d k, In d l -> dep_needs d k -> D (fst k) (snd k) = true).
    Proof.
      intros f l res H S. split.
      - intros HO d k I N. destruct (add_all_covered _ _ _ _ _ H S (Forall_nil _)) as [C1 C2].
        apply (covered_defined res HO) with (d := d) (p := []); [|exact N|exact (C1 d I)|intros c []].
        intros e J C. destruct (C2 e J C) as [[]|K]. exact K.
      - intros A. apply forallb_forall. intros e I. apply dep_holds_ok. intros AC.
        destruct (add_all_needed _ _ _ _ _ H e I) as [[]|K]. destruct (K AC) as (d & J & N). exact (A d _ J N).
    Qed.
  End Needs.

  (** *** Uses and their dependencies *)
  Section Sites.
    Context (WF : well_formed P) (PL : plain P).

    Lemma site_deps_sane : forall t s d, In s (sites P t) -> In d (site_deps P (module_of P t) s) -> sane d /\ bare_sane d.
    Proof.
      intros t s d I J. pose proof (WF t s I) as OK. unfold sane, bare_sane, named. destruct s as [i r x|i r x|i r md]; cbn [site_deps site_ok] in *.
      - destruct J as [<-|[]]. cbn [conds target]. split; [congruence|]. intros _ E. destruct OK as [O|[c O]]; congruence.
      - destruct J as [<-|[]]. cbn [conds target]. split; [congruence|]. intros _. exact (proj1 OK).
      - apply in_flat_map in J. destruct J as (sub & _ & J). destruct (method_in P sub md) as [b|] eqn:E; [|destruct J].
        destruct J as [<-|[]]. cbn [conds target]. split; [intros _; exact (OK sub b E)|discriminate].
    Qed.
    Lemma call_deps_sane : forall t d, In d (call_deps P t) -> sane d /\ bare_sane d.
    Proof. intros t d I. apply in_flat_map in I. destruct I as (s & I & J). exact (site_deps_sane t s d I J). Qed.

    Lemma active_one : forall D c, active D [c] <-> D (module_of P c) (name_of P c) = true.
    Proof. intros D c. unfold active. split; [intros H; apply H; left; reflexivity|intros H x [<-|[]]; exact H]. Qed.

    Lemma deps_needs : forall D d k, dep_needs D d k -> forall t s, In s (sites P t) -> In d (site_deps P (module_of P t) s) ->
      needs P D (module_of P t) s k.
    Proof.
      intros D d k N. induction N as [d C|d d' k A HA I N IH]; intros t s J K.
      - destruct s as [i r x|i r x|i r md]; cbn [site_deps] in K.
        + destruct K as [<-|[]]. cbn [rmod rname]. constructor.
        + destruct K as [<-|[]]. cbn [rmod rname]. constructor. rewrite (PL _ _ _ _ J). discriminate.
        + apply in_flat_map in K. destruct K as (sub & _ & K). destruct (method_in P sub md); [|destruct K].
          destruct K as [<-|[]]. discriminate C.
      - apply in_flat_map in I. destruct I as (s' & I & I'). destruct s as [i r x|i r x|i r md]; cbn [site_deps] in K.
        + destruct K as [<-|[]]. cbn [target] in HA. pose proof (WF _ _ J) as OK. cbn [site_ok] in OK. unfold has_add_all in HA.
          destruct OK as [O|[c O]]; rewrite O in HA; discriminate.
        + destruct K as [<-|[]]. cbn [target] in *. apply (needs_body P D _ _ _ _ x s').
          * unfold callee. rewrite (PL _ _ _ _ J). reflexivity.
          * exact I.
          * exact (IH x s' I I').
        + apply in_flat_map in K. destruct K as (sub & SU & K). destruct (method_in P sub md) as [b|] eqn:E; [|destruct K].
          destruct K as [<-|[]]. cbn [target conds] in *. apply (needs_dispatch P D _ _ _ _ sub b s'); try assumption.
          * apply active_one. exact A.
          * exact (IH b s' I I').
    Qed.

    Lemma needs_deps : forall D m s k, needs P D m s k -> forall t, m = module_of P t -> In s (sites P t) ->
      exists d, In d (site_deps P m s) /\ dep_needs D d k.
    Proof.
      intros D m s k N. induction N as [m i r t|m i r t NS|m i r t ST|m i r t b s k CA I N IH|m i r md sub b s k SU DF MI I N IH]; intros t0 M J.
      - eexists. split; [left; reflexivity|]. apply (dn_here D {| ref := i; rname := r; target := t; rmod := m; conds := [] |}). reflexivity.
      - eexists. split; [left; reflexivity|]. apply (dn_here D {| ref := i; rname := r; target := t; rmod := m; conds := [] |}). reflexivity.
      - rewrite (PL _ _ _ _ J) in ST. discriminate.
      - unfold callee in CA. rewrite (PL _ _ _ _ J) in CA. injection CA as <-.
        destruct (IH t eq_refl I) as (d' & I' & N'). eexists. split; [left; reflexivity|].
        apply (dn_step D _ d'); cbn [conds target].
        + intros c [].
        + unfold has_add_all. rewrite (PL _ _ _ _ J). reflexivity.
        + apply in_flat_map. exists s. split; assumption.
        + exact N'.
      - destruct (IH b eq_refl I) as (d' & I' & N'). exists {| ref := i; rname := r; target := b; rmod := m; conds := [sub] |}. split.
        + cbn [site_deps]. apply in_flat_map. exists sub. split; [exact SU|]. rewrite MI. left. reflexivity.
        + apply (dn_step D _ d'); cbn [conds target].
          * apply active_one. exact DF.
          * pose proof (WF _ _ J sub b MI) as KB. unfold has_add_all. rewrite KB. reflexivity.
          * apply in_flat_map. exists s. split; assumption.
          * exact N'.
    Qed.

    Lemma body_exact : forall f D t res, add_all P f (call_deps P t) [] [] = Some res ->
      (forallb (dep_holds P D) res = true <-> forall s k, In s (sites P t) -> needs P D (module_of P t) s k -> D (fst k) (snd k) = true).
    Proof.
      intros f D t res H. rewrite (add_all_exact D call_deps_sane f _ res H (call_deps_sane t)). split.
      - intros A s k I N. destruct (needs_deps D _ s k N t eq_refl I) as (d & J & N'). apply (A d k); [|exact N'].
        apply in_flat_map. exists s. split; assumption.
      - intros A d k I N. apply in_flat_map in I. destruct I as (s & I & J). exact (A s k I (deps_needs D d k N t s I J)).
    Qed.

    (** A use by name at top level. *)
    Theorem top_exact : forall f D m s b, top_check P f D m s = Some b -> site_ok P s ->
      (match s with Invoke _ _ _ => False | Call _ _ t => kind_of P t <> DStatic | Read _ _ _ => True end) ->
      (b = true <-> all_defined P D m s).
    Proof.
      intros f D m s b H OK NM. destruct s as [i r t|i r t|i r md]; cbn [top_check site_ok] in *; [| |destruct NM].
      - injection H as <-. split.
        + intros E m' g N. inversion N; subst. exact E.
        + intros A. apply A. constructor.
      - assert (W : forall c, callee P t = c -> match c with None => Some (D m r) | Some d => match add_all P f (call_deps P d) [] [] with
            None => None | Some res => Some (D m r && forallb (dep_holds P D) res) end end = Some b -> (b = true <-> all_defined P D m (Call i r t))).
        { intros c CA E. destruct c as [d|].
          - destruct (add_all P f (call_deps P d) [] []) as [res|] eqn:R; [|discriminate]. injection E as <-.
            rewrite andb_true_iff, (body_exact f D d res R). split.
            + intros [E A] m' g N. inversion N; subst.
              * exact E.
              * congruence.
              * assert (b = d) by congruence. subst b. exact (A s (m', g) ltac:(eassumption) ltac:(eassumption)).
            + intros A. split; [apply A; constructor; exact NM|]. intros s [m' g] I N. apply A. eapply needs_body; eassumption.
          - injection E as <-. split.
            + intros E m' g N. inversion N; subst; [exact E|congruence|congruence].
            + intros A. apply A. constructor. exact NM. }
        apply (W (callee P t) eq_refl). unfold callee. destruct (kind_of P t) eqn:K; try exact H; destruct OK; congruence.
    Qed.
  End Sites.

  (** *** Termination *)
  Definition room (U res : list dep) : nat := List.length (filter (fun d => negb (existsb (dep_eqb d) res)) U).
  Lemma room_le : forall U res res', incl res res' -> room U res' <= room U res.
  Proof.
    intros U res res' J. unfold room. induction U as [|d U IH]; [reflexivity|]. cbn [filter].
    destruct (existsb (dep_eqb d) res) eqn:E.
    - apply dep_in in E. apply J in E. apply dep_in in E. rewrite E. exact IH.
    - destruct (existsb (dep_eqb d) res'); cbn [negb List.length]; lia.
  Qed.
  Lemma room_lt : forall U res d, In d U -> ~ In d res -> room U (d :: res) < room U res.
  Proof.
    intros U res d I N. unfold room. induction U as [|k U IH]; [destruct I|]. cbn [filter]. destruct I as [->|I].
    - assert (E : existsb (dep_eqb d) (d :: res) = true) by (apply dep_in; left; reflexivity). rewrite E.
      assert (E' : existsb (dep_eqb d) res = false) by (apply dep_not_in; exact N). rewrite E'. cbn [negb List.length].
      pose proof (room_le U res (d :: res) (incl_tl d (incl_refl res))) as R. unfold room in R. lia.
    - specialize (IH I). destruct (existsb (dep_eqb k) res) eqn:E.
      + apply dep_in in E. assert (E' : existsb (dep_eqb k) (d :: res) = true) by (apply dep_in; right; exact E). rewrite E'. exact IH.
      + cbn [negb]. destruct (negb (existsb (dep_eqb k) (d :: res))); cbn [List.length]; lia.
  Qed.

  Lemma has_callee : forall t, has_add_all P t = true -> callee P t = Some t.
  Proof. intros t. unfold has_add_all, callee. destruct (kind_of P t); congruence. Qed.

  Lemma dep_executes : well_formed P -> forall t d, In d (call_deps P t) -> has_add_all P (target d) = true ->
    exists s, In s (sites P t) /\ executes P s (target d) /\ (conds d <> [] -> exists i r md, s = Invoke i r md).
  Proof.
    intros WF t d I HA. apply in_flat_map in I. destruct I as (s & I & J). exists s. split; [exact I|].
    destruct s as [i r x|i r x|i r md]; cbn [site_deps executes] in *.
    - destruct J as [<-|[]]. pose proof (WF _ _ I) as OK. cbn [target site_ok] in *. exfalso. unfold has_add_all in HA.
      destruct OK as [O|[c O]]; rewrite O in HA; discriminate.
    - destruct J as [<-|[]]. cbn [target conds] in *. split; [apply has_callee; exact HA|congruence].
    - apply in_flat_map in J. destruct J as (sub & S & J). destruct (method_in P sub md) as [b|] eqn:E; [|destruct J].
      destruct J as [<-|[]]. cbn [target]. split; [exists sub; split; assumption|eauto].
  Qed.

  Lemma add_all_below : well_formed P -> forall below rank, no_method_recursion P below rank ->
    forall f t, below t -> rank t < f -> forall l res p, incl l (call_deps P t) -> add_all P f l res p <> None.
  Proof.
    intros WF below rank [_ N2]. induction f as [|f IH]; intros t B L l res p S; [lia|]. rewrite add_all_S. revert res.
    induction l as [|d l IHl]; intros res; [discriminate|]. cbn [fold_left].
    destruct (step f p (Some res) d) as [res2|] eqn:E.
    - apply IHl. intros x I. apply S. right. exact I.
    - exfalso. unfold step in E. destruct (existsb (dep_eqb d) res); [discriminate|].
      destruct (has_add_all P (target d)) eqn:HA; [|discriminate]. revert E.
      destruct (dep_executes WF t d (S d (or_introl eq_refl)) HA) as (s & I & X & _).
      destruct (N2 t s (target d) B I X) as [B' R']. apply (IH (target d) B'); [lia|apply incl_refl].
  Qed.

  Lemma add_all_total_aux : well_formed P -> forall below rank ds, no_method_recursion P below rank -> closed_under P ds ->
    forall R, (forall d, In d ds -> rank d < R) ->
    forall f t, In t ds -> forall l res, incl l (call_deps P t) ->
    room (flat_map (call_deps P) ds) res + R < f -> add_all P f l res [] <> None.
  Proof.
    intros WF below rank ds N CL R RB. set (U := flat_map (call_deps P) ds). induction f as [|f IH]; intros t T l res S L; [lia|].
    rewrite add_all_S. revert res L. induction l as [|d l IHl]; intros res L; [discriminate|]. cbn [fold_left].
    destruct (step f [] (Some res) d) as [res2|] eqn:E.
    - apply IHl; [intros x I; apply S; right; exact I|]. unfold step in E.
      assert (incl res res2).
      { destruct (existsb (dep_eqb d) res); [injection E as <-; apply incl_refl|].
        set (res1 := match conds d with [] => extend d [] :: res | _ => res end) in E.
        assert (incl res res1) by (unfold res1; destruct (conds d); [apply incl_tl|]; apply incl_refl).
        destruct (has_add_all P (target d)); [|injection E as <-; assumption].
        eapply incl_tran; [eassumption|]. eapply add_all_incl. exact E. }
      pose proof (room_le U res res2 H). lia.
    - exfalso. unfold step in E. destruct (existsb (dep_eqb d) res) eqn:M; [discriminate|].
      destruct (has_add_all P (target d)) eqn:HA; [|discriminate]. revert E.
      assert (DI := S d (or_introl eq_refl)). destruct (dep_executes WF t d DI HA) as (s & I & X & CN).
      assert (T' : In (target d) ds) by (eapply CL; eassumption). cbn [app].
      destruct (conds d) as [|c cs] eqn:C.
      + apply (IH (target d) T'); [apply incl_refl|]. rewrite extend_nil.
        assert (room U (d :: res) < room U res).
        { apply room_lt; [|apply dep_not_in; exact M]. apply in_flat_map. exists t. split; assumption. }
        lia.
      + destruct CN as (i & r & md & ->); [discriminate|]. destruct N as [N1 N2].
        apply (add_all_below WF below rank (conj N1 N2) f (target d)); [exact (N1 _ _ _ _ _ I X)| |apply incl_refl].
        pose proof (RB _ T'). lia.
  Qed.

  Theorem top_total : well_formed P -> forall below rank ds, no_method_recursion P below rank -> closed_under P ds ->
    forall s, (forall b, executes P s b -> In b ds) ->
    exists f0, forall f D m, f0 <= f -> top_check P f D m s <> None.
  Proof.
    intros WF below rank ds N CL s EX.
    assert (RB : exists R, forall d, In d ds -> rank d < R).
    { clear. induction ds as [|d ds [R IH]]; [exists 0; intros d []|]. exists (S (rank d) + R). intros x [<-|I]; [lia|].
      specialize (IH x I). lia. }
    destruct RB as [R RB]. set (n := List.length (flat_map (call_deps P) ds)).
    exists (S (n + R)). intros f D m L.
    assert (K : forall d, In d ds -> add_all P f (call_deps P d) [] [] <> None).
    { intros d I. apply (add_all_total_aux WF below rank ds N CL R RB f d I); [apply incl_refl|].
      unfold room. assert (Q : forall (h : dep -> bool) l, List.length (filter h l) <= List.length l).
      { intros h l. induction l as [|x l IH]; [reflexivity|]. cbn [filter]. destruct (h x); cbn [List.length]; lia. }
      specialize (Q (fun d0 => negb (existsb (dep_eqb d0) [])) (flat_map (call_deps P) ds)). fold n in Q. lia. }
    destruct s as [i r t|i r t|i r md]; cbn [top_check]; try discriminate.
    cbn [executes] in EX. unfold callee in EX. destruct (kind_of P t) as [| | | |[c|]]; try discriminate.
    - specialize (K t (EX t eq_refl)). destruct (add_all P f (call_deps P t) [] []); [discriminate|congruence].
    - specialize (K c (EX c eq_refl)). destruct (add_all P f (call_deps P c) [] []); [discriminate|congruence].
  Qed.
End Deps.
