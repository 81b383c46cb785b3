From Coq Require Import Bool Arith NArith ZArith Lia Ascii String List.
From Coq Require Import DecimalPos DecimalN.
From Verif Require Import ErrModel ErrSpec.
Import ListNotations.
Open Scope list_scope.

Lemma str_eqb_eq : forall a b, str_eqb a b = true <-> a = b.
Proof. intros a b. unfold str_eqb. destruct (list_eq_dec ascii_dec a b); split; congruence. Qed.
Lemma str_eqb_refl : forall a, str_eqb a a = true.
Proof. intros a. apply str_eqb_eq. reflexivity. Qed.

(** * Registration *)
Definition positioned (g : reg) : bool := match n_pos (g_node g) with Some _ => true | None => false end.
Definition find_reg (h : list reg) (id : nat) : option reg :=
  find (fun g => positioned g && (g_id g =? id)) h.
Definition item_of (g : reg) : item :=
  {| i_node := g_node g; i_vias := g_vias g; i_reason := g_reason g |}.

Lemma translation_inv : forall h m ps m',
  translation m h = Some (ps, m') ->
  forall id,
    lookup id (items m') = match find_reg h id with Some g => Some (item_of g) | None => lookup id (items m) end /\
    lookup id (crules m') = match find_reg h id with
                            | Some g => match g_rules g with Some r => Some r | None => lookup id (crules m) end
                            | None => lookup id (crules m) end /\
    (find_reg h id <> None -> lookup id (items m) = None) /\
    (forall g, In g h -> positioned g = true -> g_id g = id -> find_reg h id = Some g).
Proof.
  induction h as [|g h IH]; intros m ps m' T id.
  - injection T as <- <-. split; [reflexivity|]. split; [reflexivity|]. split; [intros H; exfalso; apply H; reflexivity|].
    intros g [].
  - cbn [translation] in T. unfold to_position in T. unfold find_reg. cbn [find]. fold (find_reg h id).
    destruct (n_pos (g_node g)) as [[[l c] e]|] eqn:P.
    + assert (PG : positioned g = true) by (unfold positioned; rewrite P; reflexivity). rewrite PG.
      unfold add_error_information in T. destruct (lookup (g_id g) (items m)) eqn:L; [discriminate|].
      destruct (translation _ h) as [[ps' m2]|] eqn:T'; [|discriminate]. injection T as <- <-.
      specialize (IH _ _ _ T' id). cbn [items crules lookup] in IH. destruct IH as (I1 & I2 & I3 & I4).
      rewrite (Nat.eqb_sym id (g_id g)) in I1, I3. cbn [andb].
      destruct (Nat.eqb_spec (g_id g) id) as [EQ|NE].
      * subst id. destruct (find_reg h (g_id g)) as [g'|] eqn:F; [exfalso; discriminate (I3 ltac:(discriminate))|].
        split; [exact I1|]. split; [|split].
        -- rewrite I2. destruct (g_rules g) as [r|]; cbn [lookup]; [rewrite Nat.eqb_refl; reflexivity|reflexivity].
        -- intros _. exact L.
        -- intros g' [<-|Hin] Pg E; [reflexivity|]. specialize (I4 g' Hin Pg E). congruence.
      * split; [exact I1|]. split; [|split].
        -- rewrite I2. destruct (g_rules g) as [r|]; cbn [lookup]; [|reflexivity].
           rewrite (Nat.eqb_sym id). destruct (Nat.eqb_spec (g_id g) id); [contradiction|]. reflexivity.
        -- exact I3.
        -- intros g' [<-|Hin] Pg E; [contradiction|]. exact (I4 g' Hin Pg E).
    + assert (PG : positioned g = false) by (unfold positioned; rewrite P; reflexivity). rewrite PG.
      destruct (translation m h) as [[ps' m2]|] eqn:T'; [|discriminate]. injection T as <- <-.
      specialize (IH _ _ _ T' id). destruct IH as (I1 & I2 & I3 & I4). cbn [andb].
      split; [exact I1|]. split; [exact I2|]. split; [exact I3|].
      intros g' [<-|Hin] Pg E; [unfold positioned in Pg; rewrite P in Pg; discriminate|]. exact (I4 g' Hin Pg E).
Qed.

Section History.
  Context (m0 : manager) (h : list reg) (ps : list vpos) (m : manager).
  Context (T : translation (clear m0) h = Some (ps, m)).

  Lemma made_lookup : forall p g, made_for h p g ->
    exists f l c e, p = IdPos f l c e (g_id g) /\ find_reg h (g_id g) = Some g /\
      lookup (g_id g) (items m) = Some (item_of g) /\ lookup (g_id g) (crules m) = g_rules g.
  Proof.
    intros p g (Hin & l & c & e & P & ->). exists (g_file g), l, c, e. split; [reflexivity|].
    destruct (translation_inv _ _ _ _ T (g_id g)) as (I1 & I2 & I3 & I4).
    assert (F : find_reg h (g_id g) = Some g) by (apply I4; [exact Hin|unfold positioned; rewrite P; reflexivity|reflexivity]).
    split; [exact F|]. rewrite F in I1, I2. split; [exact I1|].
    rewrite I2. destruct (g_rules g); reflexivity.
  Qed.

  Lemma made_unique : forall p g g', made_for h p g -> made_for h p g' -> g = g'.
  Proof.
    intros p g g' H H'. apply made_lookup in H. apply made_lookup in H'.
    destruct H as (f & l & c & e & P & F & _). destruct H' as (f' & l' & c' & e' & P' & F' & _).
    assert (g_id g = g_id g') by congruence. congruence.
  Qed.

  Lemma get_item_made : forall p g, made_for h p g -> get_item m p = Some (Some (item_of g)).
  Proof.
    intros p g H. apply made_lookup in H. destruct H as (f & l & c & e & -> & _ & L & _).
    cbn [get_item]. rewrite L. reflexivity.
  Qed.

  Lemma get_item_of : forall p, position_of h p ->
    exists i, get_item m p = Some i /\ item_for h p i /\
      match i with Some i => exists g, made_for h p g /\ i = item_of g | None => forall g, ~ made_for h p g end.
  Proof.
    intros p P. destruct p as [|f l c e|f l c e id].
    - exists None. split; [reflexivity|]. split; intros g (_ & ? & ? & ? & _ & E); discriminate.
    - exists None. split; [reflexivity|]. split; intros g (_ & ? & ? & ? & _ & E); discriminate.
    - destruct P as (g & H). exists (Some (item_of g)). split; [exact (get_item_made _ _ H)|].
      split; [exists g; split; [exact H|]; split; [reflexivity|]; split; reflexivity|exists g; split; [assumption|reflexivity]].
  Qed.

  Lemma rules_at_iff : forall p r, position_of h p ->
    (rules_at h p r <-> get_conversion_rules m p = Some r /\ r <> []).
  Proof.
    intros p r P. split.
    - intros (NE & g & H & R). apply made_lookup in H. destruct H as (f & l & c & e & -> & _ & _ & L).
      cbn [get_conversion_rules]. rewrite L, R. split; [reflexivity|assumption].
    - intros [G NE]. destruct p as [|f l c e|f l c e id]; try discriminate.
      destruct P as (g & H). split; [assumption|]. exists g. split; [assumption|].
      apply made_lookup in H. destruct H as (f' & l' & c' & e' & E & _ & _ & L).
      injection E as -> -> -> -> ->. cbn [get_conversion_rules] in G. congruence.
  Qed.
End History.

Lemma or_rules_some : forall a b r, or_rules a b = Some r ->
  (a = Some r /\ r <> []) \/ b = Some r.
Proof.
  intros [[|x a]|] b r H; cbn in H; auto. left. injection H as <-. split; [reflexivity|discriminate].
Qed.
Lemma or_rules_none : forall a b, or_rules a b = None -> (forall r, a = Some r -> r = []) /\ b = None.
Proof.
  intros [[|x a]|] b H; cbn in H; try discriminate; split; auto; congruence.
Qed.
Lemma or_rules_left : forall a b r, a = Some r -> r <> [] -> or_rules a b = Some r.
Proof. intros a b r -> NE. destruct r; [contradiction|]. reflexivity. Qed.

Lemma try_some : forall m n r, try_get_rules m n = Some r ->
  exists q, part n q /\ get_conversion_rules m (node_pos q) = Some r /\ r <> [].
Proof.
  intros m n r. induction n as [p|p l IHl r' IHr|p l IHl r' IHr]; intros H;
    cbn [try_get_rules] in H; apply or_rules_some in H; destruct H as [[G NE]|H];
    try (eexists; split; [apply part_refl|]; split; assumption); try discriminate;
    apply or_rules_some in H; destruct H as [[G NE]|H];
    try (exists l; split; [constructor; apply part_refl|]; split; assumption);
    apply or_rules_some in H; destruct H as [[G NE]|H];
    try (exists r'; split; [solve [apply part_and_r; apply part_refl | apply part_imp_r; apply part_refl]|]; split; assumption);
    apply or_rules_some in H.
  - destruct H as [[G NE]|H].
    + destruct (IHl G) as (q & P & Q). exists q. split; [apply part_and_l|]; assumption.
    + destruct (IHr H) as (q & P & Q). exists q. split; [apply part_and_r|]; assumption.
  - destruct H as [[G NE]|H].
    + destruct (IHl G) as (q & P & Q). exists q. split; [apply part_imp_l|]; assumption.
    + destruct (IHr H) as (q & P & Q). exists q. split; [apply part_imp_r|]; assumption.
Qed.

Lemma try_none : forall m n, try_get_rules m n = None ->
  forall q r, part n q -> get_conversion_rules m (node_pos q) = Some r -> r = [].
Proof.
  intros m n. induction n as [p|p l IHl r' IHr|p l IHl r' IHr]; intros H q r P G;
    cbn [try_get_rules] in H; apply or_rules_none in H; destruct H as [H0 H].
  - inversion P; subst. exact (H0 r G).
  - apply or_rules_none in H. destruct H as [H1 H]. apply or_rules_none in H. destruct H as [H2 H].
    apply or_rules_none in H. destruct H as [H3 H].
    assert (NL : try_get_rules m l = None).
    { destruct (try_get_rules m l) as [rr|] eqn:E; [|reflexivity]. exfalso.
      destruct (try_some _ _ _ E) as (_ & _ & _ & NE). apply NE. apply H3. reflexivity. }
    inversion P; subst; [exact (H0 r G)|exact (IHl NL q r ltac:(assumption) G)|exact (IHr H q r ltac:(assumption) G)].
  - apply or_rules_none in H. destruct H as [H1 H]. apply or_rules_none in H. destruct H as [H2 H].
    apply or_rules_none in H. destruct H as [H3 H].
    assert (NL : try_get_rules m l = None).
    { destruct (try_get_rules m l) as [rr|] eqn:E; [|reflexivity]. exfalso.
      destruct (try_some _ _ _ E) as (_ & _ & _ & NE). apply NE. apply H3. reflexivity. }
    inversion P; subst; [exact (H0 r G)|exact (IHl NL q r ltac:(assumption) G)|exact (IHr H q r ltac:(assumption) G)].
Qed.

Lemma try_self : forall m n r, get_conversion_rules m (node_pos n) = Some r -> r <> [] ->
  try_get_rules m n = Some r.
Proof. intros m n r G NE. destruct n; cbn [try_get_rules]; apply or_rules_left; assumption. Qed.

Section Convert.
  Context (m0 : manager) (h : list reg) (ps : list vpos) (m : manager).
  Context (T : translation (clear m0) h = Some (ps, m)).

  Definition chosen (e : verror) : rules :=
    match try_get_rules m (ve_node e) with
    | Some r => r
    | None => match ve_reason e with
              | Some r => match try_get_rules m (vr_node r) with Some x => x | None => [] end
              | None => []
              end
    end.

  Lemma chosen_ok : forall e, error_of h e -> rules_choice h e (chosen e).
  Proof.
    intros e (PE & PN & PR). unfold chosen. split; [|split].
    - intros r0 R. apply (rules_at_iff _ _ _ _ T) in R; [|apply PN; apply part_refl].
      destruct R as [G NE]. rewrite (try_self _ _ _ G NE). reflexivity.
    - intros NO vr E. rewrite E in *.
      destruct (try_get_rules m (ve_node e)) as [r|] eqn:TR.
      { exfalso. destruct (try_some _ _ _ TR) as (q & P & G & NE). apply (NO q r P).
        apply (rules_at_iff _ _ _ _ T); [exact (PN q P)|]. split; assumption. }
      split.
      + intros r0 R. apply (rules_at_iff _ _ _ _ T) in R; [|apply PR; apply part_refl].
        destruct R as [G NE]. rewrite (try_self _ _ _ G NE). reflexivity.
      + intros NO'. destruct (try_get_rules m (vr_node vr)) as [r|] eqn:TR'; [|reflexivity].
        exfalso. destruct (try_some _ _ _ TR') as (q & P & G & NE). apply (NO' q r P).
        apply (rules_at_iff _ _ _ _ T); [exact (PR q P)|]. split; assumption.
    - intros NE. destruct (try_get_rules m (ve_node e)) as [r|] eqn:TR.
      + destruct (try_some _ _ _ TR) as (q & P & G & _). exists q. split; [|left; exact P].
        apply (rules_at_iff _ _ _ _ T); [exact (PN q P)|]. split; assumption.
      + destruct (ve_reason e) as [vr|] eqn:E; [|contradiction].
        destruct (try_get_rules m (vr_node vr)) as [r|] eqn:TR'; [|contradiction].
        destruct (try_some _ _ _ TR') as (q & P & G & _). exists q.
        split; [|right; exists vr; split; [reflexivity|exact P]].
        apply (rules_at_iff _ _ _ _ T); [exact (PR q P)|]. split; assumption.
  Qed.

  Lemma make_error_ok : forall e ri i, error_of h e ->
    get_item m (ve_pos e) = Some i ->
    match ve_reason e with Some r => get_item m (node_pos (vr_node r)) = Some ri | None => True end ->
    report_ok h e (make_error e (chosen e) ri (match i with Some i => Some (i_node i) | None => None end)
                              (match i with Some i => Some (i_vias i) | None => None end)).
  Proof.
    intros e ri i EO GI GR. pose proof (chosen_ok e EO) as CH. destruct EO as (PE & PN & PR).
    destruct (get_item_of _ _ _ _ T _ PE) as (i' & GI' & IF & D).
    assert (i' = i) by congruence. subst i'. clear GI'.
    assert (PP : forall o, p_node o = match i with Some i => Some (i_node i) | None => None end ->
                           p_vias o = match i with Some i => Some (i_vias i) | None => None end ->
              (forall g, made_for h (ve_pos e) g -> p_node o = Some (g_node g) /\ p_vias o = Some (g_vias g)) /\
              ((forall g, ~ made_for h (ve_pos e) g) -> p_node o = None /\ p_vias o = None)).
    { intros o -> ->. destruct i as [i|].
      - destruct D as (g & M & ->). split.
        + intros g' M'. rewrite (made_unique _ _ _ _ T _ _ _ M' M). split; reflexivity.
        + intros NO. exfalso. exact (NO g M).
      - split; [|intros _; split; reflexivity]. intros g M. exfalso. exact (D g M). }
    unfold report_ok, make_error.
    destruct (ve_reason e) as [vr|] eqn:E.
    - destruct (get_item_of _ _ _ _ T _ (PR (vr_node vr) (part_refl _))) as (j & GJ & JF & _).
      assert (j = ri) by congruence. subst j.
      destruct (rule_lookup (ve_id e, vr_id vr) (chosen e)) as [[x y]|] eqn:RL.
      + split; [reflexivity|]. edestruct PP as [P1 P2]; [| |split; [exact P1|]]; [reflexivity|reflexivity|].
        split; [exact P2|]. exists y, ri, (chosen e). split; [reflexivity|]. split; [exact JF|].
        split; [exact CH|]. split; intros; cbn [p_id] in *; congruence.
      + split; [reflexivity|]. edestruct PP as [P1 P2]; [| |split; [exact P1|]]; [reflexivity|reflexivity|].
        split; [exact P2|]. exists (vr_id vr), ri, (chosen e). split; [reflexivity|]. split; [exact JF|].
        split; [exact CH|]. split; intros; cbn [p_id] in *; congruence.
    - split; [reflexivity|]. edestruct PP as [P1 P2]; [| |split; [exact P1|]]; [reflexivity|reflexivity|].
      split; [exact P2|]. split; reflexivity.
  Qed.

  Lemma convert_error_ok : forall e, error_of h e -> exists o, convert_error m e = Some o /\
    if ve_timeout e then p_timeout o = true /\ p_pos o = ve_pos e else report_ok h e o.
  Proof.
    intros e EO. unfold convert_error. destruct (ve_timeout e) eqn:TO.
    - eexists. split; [reflexivity|]. unfold make_error. destruct (ve_reason e) as [vr|].
      + destruct (rule_lookup _ []) as [[x y]|]; cbn; auto.
      + cbn. auto.
    - fold (chosen e). pose proof EO as (PE & PN & PR).
      destruct (get_item_of _ _ _ _ T _ PE) as (i & GI & _ & _).
      destruct (ve_reason e) as [vr|] eqn:E.
      + destruct (get_item_of _ _ _ _ T _ (PR (vr_node vr) (part_refl _))) as (j & GJ & _ & _).
        rewrite GJ, GI. pose proof (make_error_ok e j i EO GI) as MO. rewrite E in MO. specialize (MO GJ).
        destruct i as [i|]; eexists; (split; [reflexivity|exact MO]).
      + rewrite GI. pose proof (make_error_ok e None i EO GI) as MO. rewrite E in MO. specialize (MO I).
        destruct i as [i|]; eexists; (split; [reflexivity|exact MO]).
  Qed.

  Lemma convert_ok : forall es, Forall (error_of h) es -> exists out, convert m es = Some out /\
    Forall2 (fun e o => if ve_timeout e then p_timeout o = true /\ p_pos o = ve_pos e else report_ok h e o) es out.
  Proof.
    induction es as [|e es IH]; intros F.
    - exists []. split; [reflexivity|constructor].
    - inversion F as [|? ? FE FS]; subst. destruct (convert_error_ok e FE) as (o & C & R).
      destruct (IH FS) as (os & CS & RS). exists (o :: os). cbn [convert]. rewrite C, CS.
      split; [reflexivity|]. constructor; assumption.
  Qed.
End Convert.

Lemma c24_conversion : forall m0 h ps m es,
  translation (clear m0) h = Some (ps, m) -> Forall (error_of h) es ->
  exists out, convert m es = Some out /\
    Forall2 (fun e o => if ve_timeout e then p_timeout o = true /\ p_pos o = ve_pos e else report_ok h e o) es out.
Proof. intros m0 h ps m es T. exact (convert_ok m0 h ps m T es). Qed.

(** Positions are made for the requests in order; a request whose node has a
    position gets one of its own. *)
Lemma c24_positions : forall h m0 ps m, translation m0 h = Some (ps, m) ->
  Forall2 (fun g p => match n_pos (g_node g) with
                      | Some (l, c, e) => p = IdPos (g_file g) l c e (g_id g)
                      | None => p = NoPos end) h ps.
Proof.
  induction h as [|g h IH]; intros m0 ps m T; cbn [translation] in T.
  - injection T as <- <-. constructor.
  - unfold to_position in T. destruct (n_pos (g_node g)) as [[[l c] e]|] eqn:P.
    + unfold add_error_information in T. destruct (lookup (g_id g) (items m0)); [discriminate|].
      destruct (translation _ h) as [[ps' m2]|] eqn:T'; [|discriminate]. injection T as <- <-.
      constructor; [rewrite P; reflexivity|exact (IH _ _ _ T')].
    + destruct (translation _ h) as [[ps' m2]|] eqn:T'; [|discriminate]. injection T as <- <-.
      constructor; [rewrite P; reflexivity|exact (IH _ _ _ T')].
Qed.

(** Requests with distinct ids never fail. *)
Lemma c24_fresh_ids : forall h m0, NoDup (map g_id h) ->
  (forall g, In g h -> lookup (g_id g) (items m0) = None) ->
  exists ps m, translation m0 h = Some (ps, m).
Proof.
  induction h as [|g h IH]; intros m0 ND FR.
  - eexists; eexists; reflexivity.
  - inversion ND as [|? ? NI ND']; subst. cbn [translation]. unfold to_position, add_error_information.
    rewrite (FR g (or_introl eq_refl)). destruct (n_pos (g_node g)) as [[[l c] e]|].
    + edestruct (IH {| items := (g_id g, item_of g) :: items m0;
                       crules := match g_rules g with Some r => (g_id g, r) :: crules m0 | None => crules m0 end |} ND')
        as (ps & m & T).
      { intros g' Hin. cbn [items lookup]. destruct (Nat.eqb_spec (g_id g') (g_id g)) as [E|_].
        - exfalso. apply NI. rewrite <- E. apply in_map. exact Hin.
        - apply FR. right. exact Hin. }
      unfold item_of in T. rewrite T. eexists; eexists; reflexivity.
    + destruct (IH m0 ND' (fun g' Hin => FR g' (or_intror Hin))) as (ps & m & T).
      rewrite T. eexists; eexists; reflexivity.
Qed.

(** * Branch conditions *)
Lemma starts_with_app : forall p s, starts_with p (p ++ s) = true.
Proof. induction p; intros s; cbn; [reflexivity|]. rewrite Ascii.eqb_refl. apply IHp. Qed.
Lemma starts_with_split : forall p s, starts_with p s = true -> exists r, s = p ++ r.
Proof.
  induction p as [|a p IH]; intros s H; cbn in *; [exists s; reflexivity|].
  destruct s as [|b s]; [discriminate|]. apply andb_true_iff in H. destruct H as [E H].
  apply Ascii.eqb_eq in E. subst b. destruct (IH s H) as [r ->]. exists r. reflexivity.
Qed.

Lemma removelast_snoc : forall (x : str) a, removelast (x ++ [a]) = x.
Proof. intros x a. rewrite removelast_app by discriminate. cbn. apply app_nil_r. Qed.

Lemma skipn_app_exact : forall {A} (p s : list A), skipn (length p) (p ++ s) = s.
Proof. intros A p s. induction p; cbn; auto. Qed.

Lemma negate_of_negation : forall c, negate_condition (lit "(not " ++ c ++ lit ")") = c.
Proof.
  intros c. unfold negate_condition.
  rewrite starts_with_app. unfold ends_with. rewrite !rev_app_distr.
  replace (starts_with (rev (lit ")")) ((rev (lit ")") ++ rev c) ++ rev (lit "(not "))) with true
    by (rewrite <- app_assoc; symmetry; apply starts_with_app).
  cbn [andb].
  change 5 with (length (lit "(not ")). rewrite skipn_app_exact. apply removelast_snoc.
Qed.

Lemma negate_plain : forall c, starts_with (lit "(not ") c = false ->
  negate_condition c = lit "(not " ++ c ++ lit ")".
Proof. intros c H. unfold negate_condition. rewrite H. reflexivity. Qed.

(** * Formats *)
Definition digits (s : str) : Prop := forallb digit s = true.

Lemma uint_digits : forall u, digits (uint_str u).
Proof. unfold digits. induction u; cbn; auto. Qed.
Lemma dec_digits : forall n, digits (dec n).
Proof. intros n. apply uint_digits. Qed.

Lemma parse_uint : forall u, fold_right cons_digit Decimal.Nil (uint_str u) = u.
Proof. induction u; cbn [uint_str fold_right]; try rewrite IHu; reflexivity. Qed.

Lemma num_dec : forall n, num (dec n) = n.
Proof. intros n. unfold num, dec. rewrite parse_uint. apply DecimalN.Unsigned.of_to. Qed.

Lemma dec_inj : forall a b, dec a = dec b -> a = b.
Proof. intros a b H. rewrite <- (num_dec a), <- (num_dec b), H. reflexivity. Qed.

Lemma dec_nonempty : forall n, dec n <> [].
Proof.
  intros n H. assert (E : N.to_uint n = Decimal.Nil).
  { unfold dec in H. destruct (N.to_uint n); cbn in H; congruence. }
  destruct n as [|p]; [discriminate E|]. cbn in E. exact (DecimalPos.Unsigned.to_uint_nonnil p E).
Qed.

Definition no_digit_head (s : str) : Prop := match s with a :: _ => digit a = false | [] => True end.

Lemma take_digits_app : forall d s, digits d -> no_digit_head s -> take_digits (d ++ s) = (d, s).
Proof.
  unfold digits. induction d as [|a d IH]; intros s D H; cbn [app].
  - destruct s as [|b s]; [reflexivity|]. cbn in *. rewrite H. reflexivity.
  - cbn [forallb] in D. apply andb_true_iff in D. destruct D as [A D].
    cbn [take_digits]. rewrite A, (IH s D H). reflexivity.
Qed.

Lemma colon_num_dec : forall n s, no_digit_head s -> colon_num (colon :: dec n ++ s) = Some (n, s).
Proof.
  intros n s H. unfold colon_num. rewrite Ascii.eqb_refl, (take_digits_app _ _ (dec_digits n) H).
  pose proof (num_dec n) as ND. pose proof (dec_nonempty n) as NE. destruct (dec n); [contradiction|].
  rewrite ND. reflexivity.
Qed.

Lemma colon_num_nodigit : forall s, no_digit_head s -> colon_num (colon :: s) = None.
Proof.
  intros [|b s] H; [reflexivity|]. cbn in H. unfold colon_num. rewrite Ascii.eqb_refl.
  cbn [take_digits]. rewrite H. reflexivity.
Qed.

Lemma no_newline_ok : forall m, one_line m -> no_newline m = true.
Proof.
  unfold one_line, no_newline. intros m H. apply forallb_forall. intros a A.
  apply negb_true_iff. apply Ascii.eqb_neq. intros ->. contradiction.
Qed.

Lemma error_msg_ok : forall m, one_line m -> error_msg (lit ": error: " ++ m) = Some m.
Proof.
  intros m H. unfold error_msg. rewrite starts_with_app.
  change 9 with (length (lit ": error: ")). rewrite skipn_app_exact, (no_newline_ok _ H). reflexivity.
Qed.

Lemma error_head : forall m, no_digit_head (lit ": error: " ++ m).
Proof. intros m. reflexivity. Qed.
Lemma colon_head : forall s, no_digit_head (colon :: s).
Proof. intros s. reflexivity. Qed.

Lemma error_colon_num : forall m, colon_num (lit ": error: " ++ m) = None.
Proof. intros m. change (lit ": error: " ++ m) with (colon :: (lit " error: " ++ m)). apply colon_num_nodigit. reflexivity. Qed.

Definition tail_of (l : N) (c : option (N * option (N * N))) (msg : str) : str :=
  colon :: dec l ++
  match c with
  | None => []
  | Some (c, e) => colon :: dec c ++
      match e with None => [] | Some (el, ec) => colon :: dec el ++ colon :: dec ec end
  end ++ lit ": error: " ++ msg.

Definition parsed_of (f : str) (l : N) (c : option (N * option (N * N))) (msg : str) : parsed :=
  {| m_file := f; m_line := l; m_col := match c with Some (c, _) => Some c | None => None end;
     m_end := match c with Some (_, e) => e | None => None end; m_msg := msg |}.

Lemma match_rest_tail : forall f l c msg, one_line msg ->
  match_rest f (tail_of l c msg) = Some (parsed_of f l c msg).
Proof.
  intros f l c msg ML. unfold tail_of, match_rest, parsed_of.
  destruct c as [[c [[el ec]|]]|]; cbn [app]; rewrite ?app_ass; cbn [app].
  - rewrite colon_num_dec by apply colon_head. rewrite ?app_ass; cbn [app].
    rewrite colon_num_dec by apply colon_head. rewrite ?app_ass; cbn [app].
    rewrite colon_num_dec by apply colon_head. rewrite ?app_ass; cbn [app].
    rewrite colon_num_dec by apply error_head. rewrite (error_msg_ok _ ML). reflexivity.
  - rewrite colon_num_dec by apply colon_head. rewrite ?app_ass; cbn [app].
    rewrite colon_num_dec by apply error_head.
    rewrite error_colon_num, (error_msg_ok _ ML). reflexivity.
  - rewrite colon_num_dec by apply error_head.
    rewrite error_colon_num, (error_msg_ok _ ML). reflexivity.
Qed.

Lemma match_from_file : forall f pre l c msg, plain_file f -> one_line msg ->
  match_from pre (f ++ tail_of l c msg) = Some (parsed_of (pre ++ f) l c msg).
Proof.
  induction f as [|a f IH]; intros pre l c msg PF ML.
  - cbn [app]. rewrite app_nil_r.
    change (tail_of l c msg) with (colon :: skipn 1 (tail_of l c msg)). cbn [match_from].
    change (colon :: skipn 1 (tail_of l c msg)) with (tail_of l c msg).
    rewrite (match_rest_tail _ _ _ _ ML). reflexivity.
  - destruct PF as (NL & CD & PF). cbn [app match_from].
    assert (E : match_rest pre (a :: f ++ tail_of l c msg) = None).
    { unfold match_rest. destruct (Ascii.eqb_spec a colon) as [->|NE].
      - rewrite colon_num_nodigit; [reflexivity|]. specialize (CD eq_refl).
        destruct f as [|b f]; [reflexivity|exact CD].
      - unfold colon_num. destruct (Ascii.eqb_spec a colon); [contradiction|]. reflexivity. }
    rewrite E. destruct (Ascii.eqb_spec a newline); [contradiction|].
    rewrite (IH _ _ _ _ PF ML), <- app_assoc. reflexivity.
Qed.

Lemma c37_type_message : forall f l c msg, plain_file f -> one_line msg ->
  match_type_error (type_message f l c msg) = Some (parsed_of f l c msg).
Proof.
  intros f l c msg PF ML. unfold match_type_error.
  replace (type_message f l c msg) with (f ++ tail_of l c msg).
  - exact (match_from_file f [] l c msg PF ML).
  - unfold type_message, tail_of. destruct c as [[c [[el ec]|]]|]; reflexivity.
Qed.

Lemma ide_format_message : forall f l c el ec msg,
  ide_format f l c el ec msg = type_message f l (Some (c, Some (el, ec))) msg.
Proof.
  intros. unfold ide_format, type_message. cbn [lit list_ascii_of_string app].
  rewrite <- !app_assoc. cbn [app]. rewrite <- !app_assoc. reflexivity.
Qed.

Lemma c37_ide_format : forall f l c el ec msg, plain_file f -> one_line msg ->
  match_type_error (ide_format f l c el ec msg)
  = Some {| m_file := f; m_line := l; m_col := Some c; m_end := Some (el, ec); m_msg := msg |}.
Proof. intros. rewrite ide_format_message, c37_type_message by assumption. reflexivity. Qed.

(** The human-readable format. *)
Lemma digits_rev : forall s, digits s -> digits (rev s).
Proof.
  unfold digits. intros s H. apply forallb_forall. intros a A. apply in_rev in A.
  exact (proj1 (forallb_forall _ _) H a A).
Qed.

Lemma last_number : forall x y a b m n, digit a = false -> digit b = false ->
  x ++ a :: dec m = y ++ b :: dec n -> m = n /\ x ++ [a] = y ++ [b].
Proof.
  intros x y a b m n A B E.
  assert (R : rev (x ++ a :: dec m) = rev (y ++ b :: dec n)) by (rewrite E; reflexivity).
  rewrite !rev_app_distr in R. cbn [rev] in R. rewrite <- !app_assoc in R. cbn [app] in R.
  assert (T : take_digits (rev (dec m) ++ a :: rev x) = take_digits (rev (dec n) ++ b :: rev y)) by (rewrite R; reflexivity).
  rewrite !take_digits_app in T by (first [apply digits_rev, dec_digits | cbn; assumption]).
  injection T as T1 T2 T3. split.
  - apply dec_inj. rewrite <- (rev_involutive (dec m)), T1, rev_involutive. reflexivity.
  - subst b. rewrite <- (rev_involutive x), T3, rev_involutive. reflexivity.
Qed.

Lemma first_split : forall {A} (a : A) f1 f2 r1 r2, ~ In a f1 -> ~ In a f2 ->
  f1 ++ a :: r1 = f2 ++ a :: r2 -> f1 = f2 /\ r1 = r2.
Proof.
  induction f1 as [|x f1 IH]; intros [|y f2] r1 r2 N1 N2 E; cbn in *.
  - injection E as ->. split; reflexivity.
  - injection E as -> _. exfalso. apply N2. left. reflexivity.
  - injection E as -> _. exfalso. apply N1. left. reflexivity.
  - injection E as -> E. destruct (IH f2 r1 r2) as [-> ->]; auto.
Qed.

Lemma c37_human_format : forall f m l c f' m' l' c',
  format_translation_error false f m l c None None
  = format_translation_error false f' m' l' c' None None ->
  l = l' /\ c = c' /\ (~ In "("%char f -> ~ In "("%char f' -> f = f' /\ m = m').
Proof.
  intros f m l c f' m' l' c' E. unfold format_translation_error in E.
  assert (E1 : (m ++ lit " (" ++ f ++ lit "@" ++ dec l) ++ "."%char :: dec c =
               (m' ++ lit " (" ++ f' ++ lit "@" ++ dec l') ++ "."%char :: dec c').
  { cbn [lit list_ascii_of_string] in *. rewrite !app_assoc in E. apply app_inj_tail in E. destruct E as [E _].
    rewrite <- !app_assoc in E. cbn [app] in E. rewrite <- !app_assoc. cbn [app]. exact E. }
  apply last_number in E1; [|reflexivity|reflexivity]. destruct E1 as [-> E1].
  apply app_inj_tail in E1. destruct E1 as [E1 _].
  assert (E2 : (m ++ lit " (" ++ f) ++ "@"%char :: dec l = (m' ++ lit " (" ++ f') ++ "@"%char :: dec l').
  { cbn [lit list_ascii_of_string] in *. rewrite <- !app_assoc. cbn [app] in *. exact E1. }
  apply last_number in E2; [|reflexivity|reflexivity]. destruct E2 as [-> E2].
  apply app_inj_tail in E2. destruct E2 as [E2 _].
  split; [reflexivity|]. split; [reflexivity|]. intros N1 N2.
  assert (R : rev (m ++ lit " (" ++ f) = rev (m' ++ lit " (" ++ f')) by (rewrite E2; reflexivity).
  rewrite !rev_app_distr in R. cbn [lit list_ascii_of_string rev app] in R. rewrite <- !app_assoc in R. cbn [app] in R.
  apply first_split in R; [|intros H; apply in_rev in H; contradiction|intros H; apply in_rev in H; contradiction].
  destruct R as [RF RM]. injection RM as RM. split.
  - rewrite <- (rev_involutive f), RF, rev_involutive. reflexivity.
  - rewrite <- (rev_involutive m), RM, rev_involutive. reflexivity.
Qed.

(** * Duplicates *)
Section Dedup.
  Context {A : Type} (eqv : A -> A -> bool).
  Context (eqv_trans : forall x y z, eqv x y = true -> eqv y z = true -> eqv x z = true).

  Fixpoint gen_loop (u all : list A) : list A :=
    match all with
    | [] => u
    | e :: all' => gen_loop (if existsb (eqv e) u then u else u ++ [e]) all'
    end.

  Lemma gen_loop_ok : forall q p u, (forall e, existsb (eqv e) u = existsb (eqv e) p) ->
    gen_loop u q = u ++ first_occurrences_from eqv (p ++ q) (length p) (length q).
  Proof.
    induction q as [|x q IH]; intros p u H.
    - cbn. rewrite app_nil_r. reflexivity.
    - cbn [gen_loop length first_occurrences_from].
      rewrite nth_error_app2 by lia. rewrite Nat.sub_diag. cbn [nth_error].
      rewrite firstn_app, Nat.sub_diag, firstn_all. cbn [firstn]. rewrite app_nil_r.
      rewrite H. destruct (existsb (eqv x) p) eqn:E.
      + rewrite (IH (p ++ [x]) u).
        * rewrite <- app_assoc. rewrite app_length. cbn [length app].
          replace (length p + 1) with (S (length p)) by lia. reflexivity.
        * intros e. rewrite existsb_app, H. cbn [existsb]. rewrite orb_false_r.
          destruct (eqv e x) eqn:EX; [|rewrite orb_false_r; reflexivity]. rewrite orb_true_r.
          apply existsb_exists in E. destruct E as (y & Y & XY).
          apply existsb_exists. exists y. split; [exact Y|]. exact (eqv_trans _ _ _ EX XY).
      + rewrite (IH (p ++ [x]) (u ++ [x])).
        * rewrite <- !app_assoc. rewrite app_length. cbn [length app].
          replace (length p + 1) with (S (length p)) by lia. reflexivity.
        * intros e. rewrite !existsb_app, H. reflexivity.
  Qed.
End Dedup.

Lemma str_eqb_trans : forall x y z, str_eqb x y = true -> str_eqb y z = true -> str_eqb x z = true.
Proof. intros x y z H1 H2. apply str_eqb_eq in H1. apply str_eqb_eq in H2. apply str_eqb_eq. congruence. Qed.

Lemma dedup_gen : forall q u, dedup_loop u q = gen_loop str_eqb u q.
Proof. induction q as [|x q IH]; intros u; cbn; [reflexivity|]. apply IH. Qed.

Lemma dedup_first : forall l, dedup_loop [] l = first_occurrences str_eqb l.
Proof.
  intros l. rewrite dedup_gen. rewrite (gen_loop_ok str_eqb str_eqb_trans l [] []) by reflexivity. reflexivity.
Qed.

Lemma gen_loop_in : forall l u x, In x (gen_loop str_eqb u l) <-> In x u \/ In x l.
Proof.
  induction l as [|a l IH]; intros u x; cbn [gen_loop]; [cbn; tauto|].
  rewrite IH. destruct (existsb (str_eqb a) u) eqn:E.
  - apply existsb_exists in E. destruct E as (y & Y & EQ). apply str_eqb_eq in EQ. subst y.
    cbn. split; [tauto|]. intros [?|[<-|?]]; auto.
  - rewrite in_app_iff. cbn. tauto.
Qed.

Lemma gen_loop_nodup : forall l u, NoDup u -> NoDup (gen_loop str_eqb u l).
Proof.
  induction l as [|a l IH]; intros u H; cbn [gen_loop]; [exact H|]. apply IH.
  destruct (existsb (str_eqb a) u) eqn:E; [exact H|].
  apply NoDup_rev in H. rewrite <- (rev_involutive (u ++ [a])). apply NoDup_rev.
  rewrite rev_app_distr. cbn. constructor; [|exact H]. intros Hin. apply in_rev in Hin.
  assert (existsb (str_eqb a) u = true); [|congruence].
  apply existsb_exists. exists a. split; [exact Hin|apply str_eqb_refl].
Qed.

Lemma c38_messages : forall l,
  failure_to_string l = lit "Verification failed" ++ [newline] ++ lit "Errors:" ++ [newline] ++
                        join [newline] (first_occurrences str_eqb l) /\
  NoDup (first_occurrences str_eqb l) /\
  (forall x, In x (first_occurrences str_eqb l) <-> In x l).
Proof.
  intros l. unfold failure_to_string. rewrite dedup_first. split; [reflexivity|].
  rewrite <- dedup_first, dedup_gen. split; [apply gen_loop_nodup; constructor|].
  intros x. rewrite gen_loop_in. cbn. tauto.
Qed.

Lemma diag_key_eqb_iff : forall a b, diag_key_eqb a b = true <-> diag_key a = diag_key b.
Proof.
  intros a b. unfold diag_key_eqb, diag_key. rewrite !andb_true_iff, !str_eqb_eq, !N.eqb_eq.
  split; [intros ((((-> & ->) & ->) & ->) & ->); reflexivity|].
  intros E. inversion E. repeat split; assumption.
Qed.
Lemma diag_key_trans : forall x y z, diag_key_eqb x y = true -> diag_key_eqb y z = true -> diag_key_eqb x z = true.
Proof. intros x y z. rewrite !diag_key_eqb_iff. congruence. Qed.

Lemma diag_loop_gen : forall mk rs seen acc, (forall r, In r rs -> p_reason r <> None) ->
  (forall d, existsb (diag_key_eqb d) seen = existsb (diag_key_eqb d) acc) ->
  diag_loop mk seen acc rs = Some (gen_loop diag_key_eqb acc (map mk rs)).
Proof.
  intros mk. induction rs as [|r rs IH]; intros seen acc NR H; [reflexivity|].
  cbn [diag_loop map gen_loop]. destruct (p_reason r) eqn:P; [|exfalso; exact (NR r (or_introl eq_refl) P)].
  rewrite H. destruct (existsb (diag_key_eqb (mk r)) acc) eqn:E.
  - apply IH; [intros; apply NR; right; assumption|exact H].
  - apply IH; [intros; apply NR; right; assumption|].
    intros d. rewrite existsb_app. cbn [existsb]. rewrite orb_false_r, H. apply orb_comm.
Qed.

Lemma c38_diagnostics : forall mk rs, (forall r, In r rs -> p_reason r <> None) ->
  failure_diagnostics mk rs = Some (first_occurrences diag_key_eqb (map mk rs)).
Proof.
  intros mk rs NR. unfold failure_diagnostics. rewrite (diag_loop_gen mk rs [] []) by (auto; intros; reflexivity).
  rewrite (gen_loop_ok diag_key_eqb diag_key_trans (map mk rs) [] []) by reflexivity. reflexivity.
Qed.

Lemma c38_diag_crash : forall mk rs seen acc r, In r rs -> p_reason r = None -> diag_loop mk seen acc rs = None.
Proof.
  intros mk. induction rs as [|r0 rs IH]; intros seen acc r Hin P; [destruct Hin|].
  destruct Hin as [<-|Hin]; cbn [diag_loop].
  - rewrite P. reflexivity.
  - destruct (p_reason r0); [|reflexivity]. destruct (existsb _ seen); eapply IH; eassumption.
Qed.

Lemma first_occ_keys : forall l d, In d l ->
  exists d', In d' (first_occurrences diag_key_eqb l) /\ diag_key d' = diag_key d.
Proof.
  intros l. unfold first_occurrences.
  assert (G : forall q u d, In d u \/ In d q -> exists d', In d' (gen_loop diag_key_eqb u q) /\ diag_key d' = diag_key d).
  { induction q as [|x q IH]; intros u d H; cbn [gen_loop].
    - destruct H as [H|[]]. exists d. split; [exact H|reflexivity].
    - destruct (existsb (diag_key_eqb x) u) eqn:E.
      + destruct H as [H|[<-|H]]; [apply IH; left; exact H| |apply IH; right; exact H].
        apply existsb_exists in E. destruct E as (y & Y & EQ). apply diag_key_eqb_iff in EQ.
        destruct (IH u y (or_introl Y)) as (d' & D & K). exists d'. split; [exact D|congruence].
      + apply IH. destruct H as [H|[<-|H]]; [left|left|right]; try rewrite in_app_iff; cbn; auto. }
  intros d H. destruct (G l [] d (or_intror H)) as (d' & D & K). exists d'. split; [|exact K].
  rewrite (gen_loop_ok diag_key_eqb diag_key_trans l [] []) in D by reflexivity. exact D.
Qed.

Lemma c24_stale_position : forall m0 h ps m f l c e id,
  translation (clear m0) h = Some (ps, m) ->
  (forall g, In g h -> g_id g <> id) ->
  get_item m (IdPos f l c e id) = None.
Proof.
  intros m0 h ps m f l c e id T N. cbn [get_item].
  destruct (translation_inv _ _ _ _ T id) as (I1 & _ & _ & _). rewrite I1.
  unfold find_reg. destruct (find _ h) as [g|] eqn:F; [|reflexivity].
  apply find_some in F. destruct F as [Hin F]. apply andb_true_iff in F. destruct F as [_ F].
  apply Nat.eqb_eq in F. exfalso. exact (N g Hin F).
Qed.

Lemma c24_negated_condition : forall c,
  negate_condition (lit "(not " ++ c ++ lit ")") = c /\
  (starts_with (lit "(not ") c = false -> negate_condition c = lit "(not " ++ c ++ lit ")").
Proof. intros c. split; [apply negate_of_negation|apply negate_plain]. Qed.

Lemma c24_branch_condition : forall c neg pos,
  contains (lit ".sil") pos = false -> pos <> lit "<no position>" ->
  branch_condition c neg pos = Some ((if neg then negate_condition c else c) ++ lit " at " ++ pos).
Proof.
  intros c neg pos H N. unfold branch_condition. rewrite H.
  destruct (str_eqb pos (lit "<no position>")) eqn:E; [apply str_eqb_eq in E; contradiction|]. reflexivity.
Qed.

Lemma c37_type_diagnostic : forall path f l c msg, plain_file f -> one_line msg ->
  let d := type_diagnostic path (type_message f l c msg) in
  (f <> lit "__main__" -> d_file d = f) /\ (f = lit "__main__" -> d_file d = path) /\
  d_line d = Z.of_N l /\
  d_col d = match c with Some (c, _) => Z.of_N c - 1 | None => 0 end%Z /\
  d_end_line d = match c with Some (_, Some (el, _)) => Z.of_N el | _ => Z.of_N l end /\
  d_end_col d = match c with
                | Some (_, Some (_, ec)) => Z.of_N ec
                | Some (c, None) => Z.of_N c - 1
                | None => 0 end%Z /\
  d_msg d = lit "Type error: " ++ msg.
Proof.
  intros path f l c msg PF ML. cbn zeta. unfold type_diagnostic.
  rewrite (c37_type_message f l c msg PF ML). cbn [parsed_of m_file m_line m_col m_end m_msg d_file d_line d_col d_end_line d_end_col d_msg].
  destruct (str_eqb f (lit "__main__")) eqn:E.
  - apply str_eqb_eq in E; split; [intros N; contradiction|]; split; [reflexivity|].
    destruct c as [[c [[el ec]|]]|]; repeat split; reflexivity.
  - assert (N : f <> lit "__main__").
    { intros K; apply str_eqb_eq in K; congruence. }
    split; [reflexivity|]; split; [intros K; contradiction|].
    destruct c as [[c [[el ec]|]]|]; repeat split; reflexivity.
Qed.

Lemma c37_ide_translation_error : forall f l c el ec msg, plain_file f -> one_line msg ->
  match_type_error (format_translation_error true f msg l c el ec)
  = Some {| m_file := f; m_line := l; m_col := Some (c + 1)%N;
            m_end := Some (match el with Some x => x | None => l end,
                           match ec with Some x => x + 1 | None => c + 1 end)%N;
            m_msg := msg |}.
Proof.
  intros f l c el ec msg PF ML. unfold format_translation_error. rewrite c37_ide_format by assumption.
  destruct el, ec; reflexivity.
Qed.

Lemma make_error_pos : forall e r i n v, p_pos (make_error e r i n v) = ve_pos e /\
  (ve_reason e <> None -> p_reason (make_error e r i n v) <> None).
Proof.
  intros e r i n v. unfold make_error. destruct (ve_reason e) as [vr|].
  - destruct (match rule_lookup _ r with Some v0 => v0 | None => _ end) as [a b]. cbn. split; [reflexivity|discriminate].
  - cbn. split; [reflexivity|intros H; exfalso; apply H; reflexivity].
Qed.

Lemma convert_error_pos : forall m e o, convert_error m e = Some o -> p_pos o = ve_pos e /\
  (ve_reason e <> None -> p_reason o <> None).
Proof.
  intros m e o. unfold convert_error. destruct (ve_timeout e).
  - intros [= <-]. apply make_error_pos.
  - destruct (match ve_reason e with Some r => get_item m (node_pos (vr_node r)) | None => Some None end) as [ri|]; [|discriminate].
    destruct (get_item m (ve_pos e)) as [[i|]|]; intros H; try discriminate; injection H as <-; apply make_error_pos.
Qed.

Lemma one_line_app : forall a b, one_line a -> one_line b -> one_line (a ++ lit " " ++ b).
Proof.
  unfold one_line. intros a b A B H. apply in_app_or in H. destruct H as [H|H]; [exact (A H)|].
  cbn [lit list_ascii_of_string app] in H. destruct H as [H|H]; [discriminate H|exact (B H)].
Qed.

Lemma c37_ide_verification_error : forall m0 h ps m e o g l c en msg reason readable,
  translation (clear m0) h = Some (ps, m) -> error_of h e ->
  ve_timeout e = false -> ve_reason e <> None ->
  made_for h (ve_pos e) g -> n_pos (g_node g) = Some (l, c, en) ->
  plain_file (g_file g) -> one_line msg -> one_line reason ->
  convert_error m e = Some o ->
  exists s, error_string_ide o msg reason readable = Some s /\
  match_type_error s
  = Some {| m_file := g_file g; m_line := l; m_col := Some (c + 1)%N;
            m_end := Some match en with Some (el, ec) => (el, ec + 1)%N | None => (l, c + 1)%N end;
            m_msg := msg ++ lit " " ++ reason |}.
Proof.
  intros m0 h ps m e o g l c en msg reason readable T EO TO NR MF NP PF ML MR C.
  destruct (convert_error_pos _ _ _ C) as [PP PR]. specialize (PR NR).
  unfold error_string_ide. destruct (p_reason o) as [r|]; [|contradiction]. rewrite PP.
  destruct MF as (_ & l' & c' & en' & NP' & ->). rewrite NP in NP'. injection NP' as <- <- <-.
  cbn [pos_parts]. eexists. split; [reflexivity|].
  rewrite c37_ide_format; [|assumption|apply one_line_app; assumption].
  destruct en as [[el ec]|]; reflexivity.
Qed.

Lemma c37_exception_position : forall path code x l c e,
  n_pos (x_node x) = Some (l, c, e) -> x_file x = path ->
  d_file (exception_diagnostic path code x) = x_file x /\
  d_line (exception_diagnostic path code x) = Z.of_N l /\
  d_col (exception_diagnostic path code x) = Z.of_N c /\
  d_msg (exception_diagnostic path code x) = x_msg x /\
  (plain_file path -> one_line (x_msg x) ->
   exists p, match_type_error (print_exception true path x) = Some p /\
     m_file p = x_file x /\ m_line p = l /\ m_col p = Some (c + 1)%N /\
     m_end p = Some match e with Some (el, ec) => (el, ec + 1)%N | None => (l, c + 1)%N end /\
     m_msg p = x_msg x).
Proof.
  intros path code x l c e NP <-. unfold exception_diagnostic, print_exception. rewrite NP.
  repeat split. intros PF ML. eexists. split; [apply c37_ide_translation_error; assumption|].
  cbn [m_file m_line m_col m_end m_msg].
  split; [reflexivity|]. split; [reflexivity|]. split; [reflexivity|]. split; [|reflexivity].
  destruct e as [[el ec]|]; reflexivity.
Qed.

Lemma c38_diagnostics_partial : forall mk rs, (forall r, In r rs -> p_reason r <> None) ->
  failure_diagnostics mk rs = Some (first_occurrences diag_key_eqb (map mk rs)) /\
  (forall a b, diag_key_eqb a b = true <->
     v_file a = v_file b /\ v_line a = v_line b /\ v_col a = v_col b /\ v_code a = v_code b /\ v_msg a = v_msg b) /\
  (forall r, In r rs -> exists d, In d (first_occurrences diag_key_eqb (map mk rs)) /\
                                  diag_key_eqb d (mk r) = true).
Proof.
  intros mk rs NR. split; [exact (c38_diagnostics mk rs NR)|]. split.
  - intros a b. rewrite diag_key_eqb_iff. unfold diag_key. split.
    + intros E. injection E as E1 E2 E3 E4 E5. auto.
    + intros (-> & -> & -> & -> & ->). reflexivity.
  - intros r Hin. destruct (first_occ_keys (map mk rs) (mk r) (in_map mk rs r Hin)) as (d & D & K).
    exists d. split; [exact D|]. apply diag_key_eqb_iff. exact K.
Qed.
