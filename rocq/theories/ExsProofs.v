(** Proofs for C73. *)
From Coq Require Import List Bool Arith Relations Lia.
From Verif Require Import ExsSpec ExsModel.
Import ListNotations.

Scheme stmt_mut := Induction for stmt Sort Prop with handlers_mut := Induction for handlers Sort Prop.
Scheme exec_mut := Minimality for exec Sort Prop with runs_mut := Minimality for runs Sort Prop.

Section P.
  Variable St : Type.
  Variable Exn : Type.
  Variable isa : Exn -> nat -> bool.
  Notation declared := (declared St Exn). Notation declares := (declares St Exn).
  Notation keeps := (keeps St Exn isa). Notation posts_hold := (posts_hold St Exn isa).
  Notation dict := (dict St Exn).
  Notation cond := (cond St Exn).

  (** ** The dictionary of declared exceptions *)
  Definition has (d : dict) (c : nat) (p : cond) : Prop := exists ps, In (c, ps) d /\ In p ps.

  Lemma append_has c p d : mem St Exn c d = true ->
    forall c0 p0, has (append_to St Exn c p d) c0 p0 <-> (c0 = c /\ p0 = p) \/ has d c0 p0.
  Proof.
    induction d as [|(c', ps) d IH]; cbn; [discriminate|].
    intros M c0 p0. destruct (Nat.eqb_spec c c') as [<- | N].
    - unfold has. split.
      + intros (qs & [E | I] & J).
        * injection E as <- <-. apply in_app_or in J. destruct J as [J | [<- | []]]; [|left; auto].
          right. exists ps. cbn. auto.
        * right. exists qs. cbn. auto.
      + intros [(-> & ->) | (qs & [E | I] & J)].
        * exists (ps ++ [p]). split; [left; reflexivity|]. apply in_or_app. right. left. reflexivity.
        * injection E as <- <-. exists (ps ++ [p]). split; [left; reflexivity|]. apply in_or_app. left. exact J.
        * exists qs. split; [right; exact I|exact J].
    - cbn in M. specialize (IH M c0 p0). unfold has in *. split.
      + intros (qs & [E | I] & J).
        * right. exists qs. split; [left; exact E|exact J].
        * destruct (proj1 IH (ex_intro _ qs (conj I J))) as [A | (rs & A & B)]; [left; exact A|].
          right. exists rs. split; [right; exact A|exact B].
      + intros [A | (qs & [E | I] & J)].
        * destruct (proj2 IH (or_introl A)) as (rs & B & C). exists rs. split; [right; exact B|exact C].
        * exists qs. split; [left; exact E|exact J].
        * destruct (proj2 IH (or_intror (ex_intro _ qs (conj I J)))) as (rs & B & C). exists rs. split; [right; exact B|exact C].
  Qed.

  Lemma mem_new c (d : dict) : mem St Exn c (d ++ [(c, [])]) = true.
  Proof. induction d as [|(c', ps) d IH]; cbn; [rewrite Nat.eqb_refl; reflexivity|]. rewrite IH. apply orb_true_r. Qed.

  Lemma append_new c p (d : dict) : mem St Exn c d = false -> append_to St Exn c p (d ++ [(c, [])]) = d ++ [(c, [p])].
  Proof.
    induction d as [|(c', ps) d IH]; cbn; [rewrite Nat.eqb_refl; reflexivity|].
    destruct (c =? c'); [discriminate|]. cbn. intros M. rewrite (IH M). reflexivity.
  Qed.

  Lemma add_has d x c0 p0 : has (add_exsures St Exn d x) c0 p0 <-> (c0 = fst x /\ p0 = snd x) \/ has d c0 p0.
  Proof.
    unfold add_exsures. destruct (mem St Exn (fst x) d) eqn:M; [apply append_has; exact M|].
    rewrite append_has; [|apply mem_new].
    split; (intros [A | A]; [left; exact A|right]); destruct A as (ps & I & J).
    - apply in_app_or in I. destruct I as [I | [E | []]]; [exists ps; auto|]. injection E as <- <-. destruct J.
    - exists ps. split; [apply in_or_app; left; exact I|exact J].
  Qed.

  Definition full (d : dict) : Prop := Forall (fun x => snd x <> []) d.
  Lemma append_full c p (d : dict) : full d -> full (append_to St Exn c p d).
  Proof.
    unfold full. induction 1 as [|(c', ps) d E F IH]; cbn; [constructor|]. cbn in E.
    destruct (c =? c'); constructor; cbn; auto. intros H. apply app_eq_nil in H. destruct H. discriminate.
  Qed.
  Lemma add_full d x : full d -> full (add_exsures St Exn d x).
  Proof.
    intros F. unfold add_exsures. destruct (mem St Exn (fst x) d) eqn:M; [apply append_full; exact F|].
    rewrite (append_new _ _ _ M). apply Forall_app. split; [exact F|]. constructor; [discriminate|constructor].
  Qed.

  Lemma fold_has l : forall d c p, has (fold_left (add_exsures St Exn) l d) c p <-> In (c, p) l \/ has d c p.
  Proof.
    induction l as [|x l IH]; intros d c p; cbn; [tauto|].
    rewrite IH, add_has. destruct x as (c', p'). cbn. split.
    - intros [A | [(-> & ->) | A]]; auto.
    - intros [[E | A] | A]; auto. injection E as <- <-. auto.
  Qed.
  Lemma fold_full l : forall d, full d -> full (fold_left (add_exsures St Exn) l d).
  Proof. induction l as [|x l IH]; intros d F; cbn; [exact F|]. apply IH, add_full, F. Qed.

  Lemma declared_has k c p : has (declared k) c p <-> In (c, p) (exsures k).
  Proof. unfold declared. rewrite fold_has. split; [|auto]. intros [A | (ps & [] & _)]. exact A. Qed.
  Lemma declared_full k : full (declared k).
  Proof. apply fold_full. constructor. Qed.
  Lemma declared_class k c ps : In (c, ps) (declared k) -> exists p, In (c, p) (exsures k).
  Proof.
    intros I. pose proof (declared_full k) as F. unfold full in F. rewrite Forall_forall in F. specialize (F _ I). cbn in F.
    destruct ps as [|p ps]; [congruence|]. exists p. apply declared_has. exists (p :: ps). split; [exact I|left; reflexivity].
  Qed.
  Lemma class_declared k c p : In (c, p) (exsures k) -> exists ps, In (c, ps) (declared k).
  Proof. intros I. apply declared_has in I. destruct I as (ps & I & _). exists ps. exact I. Qed.

  Lemma declares_false k : declares k = false -> exsures k = [].
  Proof.
    unfold ExsModel.declares. destruct (declared k) eqn:D; [|discriminate]. intros _.
    destruct (exsures k) as [|(c, p) l] eqn:E; [reflexivity|].
    destruct (class_declared k c p) as (ps & I); [rewrite E; left; reflexivity|]. rewrite D in I. destruct I.
  Qed.
  Lemma declares_true k : declares k = true -> exists c p, In (c, p) (exsures k).
  Proof.
    unfold ExsModel.declares. destruct (declared k) as [|(c, ps) d] eqn:D; [discriminate|]. intros _.
    destruct (declared_class k c ps) as (p & I); [rewrite D; left; reflexivity|]. eauto.
  Qed.

  (** ** Postconditions *)
  Lemma any_or ts : forall (t : option Exn -> bool) err,
    fold_left (fun a t => fun err => a err || t err) ts t err = t err || existsb (fun u => u err) ts.
  Proof.
    induction ts as [|u ts IH]; intros t err; cbn; [rewrite orb_false_r; reflexivity|].
    rewrite IH. rewrite orb_assoc. reflexivity.
  Qed.

  Lemma posts_none k s s' : posts_hold k s s' None <-> keeps k s (Norm s').
  Proof.
    unfold ExsModel.posts_hold, posts. rewrite !Forall_app. cbn [ExsSpec.keeps].
    assert (A : Forall (fun p => p s s' None = true) (translate_posts St Exn k) <-> Forall (fun p => p s s' = true) (ensures k)).
    { unfold translate_posts. rewrite Forall_map. cbn. destruct (declares k); cbn; reflexivity. }
    rewrite A. split; [tauto|]. intros F. split; [exact F|].
    unfold translate_exceptional_posts. apply Forall_app. split.
    - apply Forall_flat_map. apply Forall_forall. intros x _. apply Forall_map. apply Forall_forall. intros p _. reflexivity.
    - destruct (map _ _); [constructor|]. constructor; [reflexivity|constructor].
  Qed.

  Lemma posts_some k s s' e : declares k = true -> (posts_hold k s s' (Some e) <-> keeps k s (Raised e s')).
  Proof.
    intros D. unfold ExsModel.posts_hold, posts. rewrite !Forall_app. cbn [ExsSpec.keeps].
    assert (A : Forall (fun p => p s s' (Some e) = true) (translate_posts St Exn k)).
    { unfold translate_posts. rewrite D. apply Forall_map. apply Forall_forall. reflexivity. }
    unfold translate_exceptional_posts. rewrite Forall_app.
    assert (B : Forall (fun p => p s s' (Some e) = true)
       (flat_map (fun x => map (fun p s s' err => implb (error Exn err && has_type Exn isa (fst x) err)
                    (match err with Some e => p s e s' | None => false end)) (snd x)) (declared k)) <->
       (forall d p, In (d, p) (exsures k) -> isa e d = true -> p s e s' = true)).
    { rewrite Forall_flat_map, Forall_forall. split.
      - intros H d p I J. apply declared_has in I. destruct I as (ps & I & I').
        specialize (H _ I). cbn in H. rewrite Forall_map, Forall_forall in H. specialize (H _ I'). cbn in H. rewrite J in H. exact H.
      - intros H (d, ps) I. cbn. apply Forall_map. apply Forall_forall. intros p J. cbn.
        destruct (isa e d) eqn:E; [|reflexivity]. cbn. refine (H d p _ E). apply declared_has. exists ps. auto. }
    assert (C : Forall (fun p => p s s' (Some e) = true)
       (match map (fun x => has_type Exn isa (fst x)) (declared k) with
        | [] => [] | t :: ts => [fun (_ _ : St) err => implb (error Exn err) (fold_left (fun a t => fun err => a err || t err) ts t err)] end) <->
       (exists d p, In (d, p) (exsures k) /\ isa e d = true)).
    { destruct (map (fun x => has_type Exn isa (fst x)) (declared k)) as [|t ts] eqn:M.
      - unfold ExsModel.declares in D. destruct (declared k); [discriminate|discriminate M].
      - assert (X : (t (Some e) || existsb (fun u => u (Some e)) ts = true) <->
                    existsb (fun x => isa e (fst x)) (declared k) = true).
        { change (t (Some e) || existsb (fun u => u (Some e)) ts) with (existsb (fun u => u (Some e)) (t :: ts)). rewrite <- M.
          generalize (declared k) as d. induction d as [|y d IH]; cbn; [reflexivity|]. rewrite !orb_true_iff, IH. reflexivity. }
        transitivity (existsb (fun x => isa e (fst x)) (declared k) = true).
        + rewrite <- X. rewrite <- any_or. split.
          * intros F. inversion F as [|? ? G _]; subst. exact G.
          * intros G. constructor; [exact G|constructor].
        + rewrite existsb_exists. split.
          * intros ((d, ps) & I & J). cbn in J. destruct (declared_class k d ps I) as (p & I'). exists d, p. auto.
          * intros (d & p & I & J). destruct (class_declared k d p I) as (ps & I'). exists (d, ps). auto. }
    rewrite B, C. tauto.
  Qed.

  Lemma posts_undeclared k s s' err : declares k = false -> (posts_hold k s s' err <-> keeps k s (Norm s')).
  Proof.
    intros D. rewrite <- posts_none. unfold ExsModel.posts_hold, posts.
    rewrite !Forall_app. unfold translate_exceptional_posts, translate_posts. rewrite D.
    unfold ExsModel.declares in D. destruct (declared k); [|discriminate]. cbn.
    rewrite !Forall_map. cbn. split; (intros (A & _); split; [exact A|constructor]).
  Qed.
  Lemma undeclared_raises k s e s' : declares k = false -> ~ keeps k s (Raised e s').
  Proof. intros D ((d & p & I & _) & _). rewrite (declares_false _ D) in I. destruct I. Qed.

  (** ** Code *)
  Definition hcases (ts : tries) : list (nat * label) := flat_map (fun t => number (fst t) 0 (snd t)) ts.
  Definition dest (e : Exn) (ts : tries) : option label := option_map snd (find (fun c => isa e (fst c)) (hcases ts)).
  Definition wf (ts : tries) : Prop := Forall (fun t => fst t < length ts) ts.

  Lemma cons_rev {A} (l : list A) : forall acc, fold_left (fun cs c => c :: cs) l acc = rev l ++ acc.
  Proof. induction l as [|x l IH]; intros acc; cbn; [reflexivity|]. rewrite IH, <- app_assoc. reflexivity. Qed.

  Variable meth : nat -> method St Exn.
  Variable havocs : vst St Exn -> var -> bool.
  Notation wp := (wp St Exn isa meth havocs).
  Section K.
    Variable k : contract St Exn.
    Notation catchers := (catchers St Exn k).
    Lemma wp_catchers x ts L Q s ev e : ev x = Some e ->
      (wp (catchers x ts) L Q s ev <->
       match dest e ts with
       | Some l => L l s ev
       | None => if declares k then L LEnd s (upd Exn ev Merr (Some e)) else False
       end).
    Proof.
      intros E. unfold ExsModel.catchers. cbn [ExsModel.wp]. rewrite E. unfold cases. fold (hcases ts). rewrite cons_rev, app_nil_r.
      rewrite <- fold_left_rev_right, rev_involutive. unfold dest.
      induction (hcases ts) as [|c cs IH]; cbn [fold_right find option_map ExsModel.wp].
      - unfold uncaught. destruct (declares k); cbn [ExsModel.wp]; [rewrite E|]; reflexivity.
      - rewrite E. cbn [has_type]. destruct (isa e (fst c)); [reflexivity|exact IH].
    Qed.
    Lemma wp_catchers_none x ts L Q s ev : ev x = None -> (wp (catchers x ts) L Q s ev <-> Q s ev).
    Proof. intros E. cbn. rewrite E. reflexivity. Qed.

    Definition ok (Qs : St -> Prop) (H : label -> St -> Prop) (End : St -> option Exn -> Prop) (ts : tries) (o : outcome St Exn) : Prop :=
      match o with
      | Norm s => Qs s
      | Ret s => End s None
      | Raised e s => match dest e ts with Some l => H l s | None => if declares k then End s (Some e) else False end
      | Brk s => H LBreak s
      | Con s => H LCont s
      | Lost => False
      end.
    Notation alone := (alone St Exn isa meth).
    Fixpoint nth_h (n : nat) (hs : handlers St Exn) : option (stmt St Exn) :=
      match hs, n with
      | HNil, _ => None
      | HCons _ h _, O => Some h
      | HCons _ _ hs, S n => nth_h n hs
      end.

    Definition env_ok (L : label -> assn St Exn) (Q : assn St Exn) Qs (H : label -> St -> Prop) (End : St -> option Exn -> Prop) : Prop :=
      (forall s ev, ev Merr = None -> (Q s ev <-> Qs s)) /\
      (forall l s ev, l <> LEnd -> ev Merr = None -> (L l s ev <-> H l s)) /\
      (forall s ev, L LEnd s ev <-> End s (ev Merr)).

    Definition good (s : stmt St Exn) : Prop := loop_free St Exn s ->
      forall ts L Q Qs H End, wf ts -> env_ok L Q Qs H End ->
      forall st ev, ev Merr = None ->
        (wp (tr St Exn meth k ts s) L Q st ev <-> forall o, alone s st o -> ok Qs H End ts o).
    Definition good_h (hs : handlers St Exn) : Prop := loop_free_h St Exn hs ->
      forall ts L Q Qs H End, wf ts -> env_ok L Q Qs H End ->
      forall n st ev, ev Merr = None ->
        (wp_h St Exn isa meth havocs (tr_h St Exn meth k ts hs) L Q n st ev <->
         match nth_h n hs with Some h => forall o, alone h st o -> ok Qs H End ts o | None => False end).

    Lemma number_label i cs : forall n e c l, find (fun c => isa e (fst c)) (number i n cs) = Some (c, l) -> exists m, l = LHandler i m.
    Proof.
      induction cs as [|c0 cs IH]; intros n e c l; cbn; [discriminate|].
      destruct (isa e c0); [|apply IH]. intros E. injection E as <- <-. eauto.
    Qed.
    Lemma find_app {A} (f : A -> bool) l1 l2 : find f (l1 ++ l2) = match find f l1 with Some x => Some x | None => find f l2 end.
    Proof. induction l1 as [|x l1 IH]; cbn; [reflexivity|]. destruct (f x); [reflexivity|exact IH]. Qed.

    Lemma dest_lt e ts n : Forall (fun t => fst t < n) ts -> forall l, dest e ts = Some l -> exists i m, l = LHandler i m /\ i < n.
    Proof.
      unfold dest, hcases. induction 1 as [|t ts F _ IH]; cbn [flat_map]; [discriminate|].
      rewrite find_app. destruct (find _ (number _ _ _)) as [(c, l0)|] eqn:E; cbn; intros l Q; [|exact (IH l Q)].
      injection Q as <-. destruct (number_label _ _ _ _ _ _ E) as (m & ->). eauto.
    Qed.
    Lemma own_handler i hs : forall n0 e,
      match find (fun c => isa e (fst c)) (number i n0 (classes St Exn hs)), find_handler St Exn isa e hs with
      | Some (_, l), Some h => exists n, l = LHandler i (n0 + n) /\ nth_h n hs = Some h
      | None, None => True
      | _, _ => False
      end.
    Proof.
      induction hs as [|c h hs IH]; intros n0 e; cbn; [exact Logic.I|].
      destruct (isa e c) eqn:E.
      - exists 0. rewrite Nat.add_0_r. auto.
      - specialize (IH (S n0) e). destruct (find _ (number _ _ _)) as [(c', l)|], (find_handler _ _ _ e hs); try exact IH.
        destruct IH as (n & -> & N). exists (S n). rewrite Nat.add_succ_r. auto.
    Qed.

    Lemma holds_dec (l : list (St -> bool)) s : holds l s \/ ~ holds l s.
    Proof. unfold holds. destruct (Forall_dec (fun p => p s = true) (fun p => bool_dec (p s) true) l); auto. Qed.

    Lemma upd_same ev x v : upd Exn ev x v x = v.
    Proof. unfold upd. destruct x; cbn; rewrite ?Nat.eqb_refl; reflexivity. Qed.
    Lemma error_var_cases ts : error_var St Exn k ts = Merr /\ ts = [] /\ declares k = true \/ error_var St Exn k ts <> Merr.
    Proof. destruct ts as [|(i, cs) ts]; cbn; [|right; discriminate]. destruct (declares k); [left; auto|right; discriminate]. Qed.
    Lemma upd_other ev x v : x <> Merr -> upd Exn ev x v Merr = ev Merr.
    Proof. intros N. unfold upd. destruct x; cbn; congruence. Qed.

    (** After the error variable is set to an exception. *)
    Lemma raise_ok ts L Q Q' Qs H End st ev e : env_ok L Q Qs H End -> wf ts -> ev Merr = None ->
      (wp (catchers (error_var St Exn k ts) ts) L Q' st (upd Exn ev (error_var St Exn k ts) (Some e)) <->
       ok Qs H End ts (Raised e st)).
    Proof.
      intros (_ & HL & HE) W N. rewrite (wp_catchers _ _ _ _ _ _ e); [|apply upd_same]. cbn [ok].
      destruct (dest e ts) as [l|] eqn:D.
      - destruct (dest_lt e ts _ W l D) as (i & m & -> & _). apply HL; [discriminate|].
        destruct (error_var_cases ts) as [(_ & -> & _) | X]; [discriminate D|]. rewrite (upd_other _ _ _ X). exact N.
      - destruct (declares k); [|reflexivity]. rewrite HE. rewrite upd_same. reflexivity.
    Qed.

    Ltac inv H := inversion H; subst; clear H.

    Lemma code : forall s, good s.
    Proof.
      apply (stmt_mut St Exn good good_h); unfold good, good_h.
      - (* skip *)
        intros LF ts L Q Qs H End W (HQ & _) st ev N. cbn. rewrite (HQ _ _ N). split.
        + intros X o A. inv A. exact X.
        + intros X. exact (X _ (A_skip _ _ _ _ _)).
      - intros f LF ts L Q Qs H End W (HQ & _) st ev N. cbn. rewrite (HQ _ _ N). split.
        + intros X o A. inv A. exact X.
        + intros X. exact (X _ (A_do _ _ _ _ _ _)).
      - intros c LF ts L Q Qs H End W (HQ & _) st ev N. cbn. rewrite (HQ _ _ N). split.
        + intros (C & X) o A. inv A; [exact X|congruence].
        + intros X. destruct (c st) eqn:C; [split; [reflexivity|]; exact (X _ (A_assert _ _ _ _ _ _ C))|].
          destruct (X _ (A_lost _ _ _ _ _ _ C)).
      - (* seq *)
        intros a IHa b IHb (LFa & LFb) ts L Q Qs H End W E st ev N. cbn.
        assert (E' : env_ok L (wp (tr St Exn meth k ts b) L Q) (fun s => forall o, alone b s o -> ok Qs H End ts o) H End).
        { destruct E as (HQ & HL & HE). split; [|split; [exact HL|exact HE]].
          intros s ev' N'. apply IHb; auto. split; auto. }
        rewrite (IHa LFa ts L _ _ H End W E' st ev N). split.
        + intros X o A. inv A.
          * match goal with A1 : ExsSpec.alone _ _ _ _ a _ _, B1 : ExsSpec.alone _ _ _ _ b _ _ |- _ => exact (X _ A1 _ B1) end.
          * match goal with A1 : ExsSpec.alone _ _ _ _ a _ _, B1 : forall _, _ <> _ |- _ =>
              specialize (X _ A1); destruct o; try exact X; destruct (B1 _ eq_refl) end.
        + intros X o A. destruct o; cbn; [|refine (X (Ret _) (A_seq_end _ _ _ _ _ _ _ _ A _)); discriminate
             |refine (X (Raised _ _) (A_seq_end _ _ _ _ _ _ _ _ A _)); discriminate
             |refine (X (Brk _) (A_seq_end _ _ _ _ _ _ _ _ A _)); discriminate
             |refine (X (Con _) (A_seq_end _ _ _ _ _ _ _ _ A _)); discriminate
             |refine (X Lost (A_seq_end _ _ _ _ _ _ _ _ A _)); discriminate].
          intros o B. refine (X o (A_seq _ _ _ _ _ _ _ _ _ A B)).
      - (* if *)
        intros c a IHa b IHb (LFa & LFb) ts L Q Qs H End W E st ev N. cbn.
        destruct (c st) eqn:C; [rewrite (IHa LFa ts L Q Qs H End W E st ev N)|rewrite (IHb LFb ts L Q Qs H End W E st ev N)];
          (split; intros X o A; [inv A; rewrite C in *; auto|]);
          refine (X o (A_if _ _ _ _ _ _ _ _ _ _)); rewrite C; exact A.
      - (* return *)
        intros f LF ts L Q Qs H End W (_ & _ & HE) st ev N. cbn. rewrite HE, N. split.
        + intros X o A. inv A. exact X.
        + intros X. exact (X _ (A_return _ _ _ _ _ _)).
      - (* raise *)
        intros e LF ts L Q Qs H End W E st ev N. cbn [tr ExsModel.wp]. rewrite (raise_ok ts L Q Q Qs H End st ev (e st) E W N). split.
        + intros X o A. inv A. exact X.
        + intros X. exact (X _ (A_raise _ _ _ _ _ _)).
      - (* call *)
        intros m d en lv LF ts L Q Qs H End W E st ev N. cbn [tr].
        destruct (declares (sig (meth m))) eqn:D; cbn [ExsModel.wp].
        + split.
          * intros (R & X) o A. inv A; try match goal with K : ExsSpec.keeps _ _ _ _ _ _ |- _ => rename K into K8 end.
            -- specialize (X s' None (proj2 (posts_none _ _ _) K8)). rewrite wp_catchers_none in X; [|apply upd_same].
               destruct E as (HQ & _). cbn. refine (proj1 (HQ _ _ _) X).
               destruct (error_var_cases ts) as [(-> & _) | Z]; [apply upd_same|rewrite (upd_other _ _ _ Z); exact N].
            -- specialize (X s' (Some e) (proj2 (posts_some _ _ _ _ D) K8)).
               rewrite (raise_ok ts L Q Q Qs H End _ ev e E W N) in X. exact X.
            -- contradiction.
          * intros X. destruct (holds_dec (requires (sig (meth m))) (en st)) as [R | R].
            2: destruct (X _ (A_call_lost _ _ _ _ _ _ _ _ _ R)).
            split; [exact R|]. intros s' [e|] P.
            -- rewrite (raise_ok ts L Q Q Qs H End _ ev e E W N). refine (X _ (A_call_raise _ _ _ _ _ _ _ _ _ _ _ R _)).
               apply posts_some; assumption.
            -- rewrite wp_catchers_none; [|apply upd_same]. destruct E as (HQ & _). apply HQ.
               ++ destruct (error_var_cases ts) as [(-> & _) | Z]; [apply upd_same|rewrite (upd_other _ _ _ Z); exact N].
               ++ refine (X _ (A_call _ _ _ _ _ _ _ _ _ _ R _)). apply posts_none, P.
        + split.
          * intros (R & X) o A. inv A; try match goal with K : ExsSpec.keeps _ _ _ _ _ _ |- _ => rename K into K8 end.
            -- specialize (X s' None (proj2 (posts_none _ _ _) K8)). destruct E as (HQ & _). exact (proj1 (HQ _ _ N) X).
            -- destruct (undeclared_raises _ _ _ _ D K8).
            -- contradiction.
          * intros X. destruct (holds_dec (requires (sig (meth m))) (en st)) as [R | R].
            2: destruct (X _ (A_call_lost _ _ _ _ _ _ _ _ _ R)).
            split; [exact R|]. intros s' err P. destruct E as (HQ & _). apply HQ; [exact N|].
            refine (X _ (A_call _ _ _ _ _ _ _ _ _ _ R _)). apply (posts_undeclared _ _ _ err D), P.
      - (* try *)
        intros b IHb hs IHh oe IHo (LFb & LFh & LFo) ts L Q Qs H End W E st ev N. cbn [tr ExsModel.wp].
        set (i := length ts).
        set (H' := fun l s => match l with
                     | LHandler j n => if i =? j then match nth_h n hs with Some h => forall o, alone h s o -> ok Qs H End ts o | None => False end else H l s
                     | _ => H l s end).
        assert (W' : wf ((i, classes St Exn hs) :: ts)).
        { constructor; [cbn; auto|]. unfold wf in W. revert W. apply Forall_impl. cbn. intros t X. lia. }
        assert (E' : env_ok (fun l => match l with
                       | LHandler j n => if i =? j then wp_h St Exn isa meth havocs (tr_h St Exn meth k ts hs) L Q n else L l
                       | _ => L l end) (wp (tr St Exn meth k ts oe) L Q) (fun s => forall o, alone oe s o -> ok Qs H End ts o) H' End).
        { pose proof E as (HQ & HL & HE). split; [|split].
          - intros s ev' N'. apply IHo; auto.
          - intros [|j n | |] s ev' NE N'; [congruence| |apply HL; auto|apply HL; auto]. cbn. destruct (i =? j); [apply IHh; auto|apply HL; auto].
          - exact HE. }
        rewrite (IHb LFb _ _ _ _ _ _ W' E' st ev N).
        assert (DD : forall e s, ok (fun s => forall o, alone oe s o -> ok Qs H End ts o) H' End ((i, classes St Exn hs) :: ts) (Raised e s) <->
                     match find_handler St Exn isa e hs with
                     | Some h => forall o, alone h s o -> ok Qs H End ts o
                     | None => ok Qs H End ts (Raised e s)
                     end).
        { intros e s. cbn [ok]. unfold dest at 1. cbn [hcases flat_map fst snd]. rewrite find_app.
          pose proof (own_handler i hs 0 e) as O.
          destruct (find _ (number i 0 _)) as [(c, l)|], (find_handler St Exn isa e hs) as [h|]; try contradiction.
          - destruct O as (n & -> & NH). cbn. rewrite Nat.eqb_refl, NH. reflexivity.
          - fold (hcases ts). change (option_map snd (find (fun c => isa e (fst c)) (hcases ts))) with (dest e ts).
            destruct (dest e ts) as [l|] eqn:D; [|reflexivity].
            destruct (dest_lt e ts _ W l D) as (j & m & -> & LT). cbn. destruct (Nat.eqb_spec i j); [lia|reflexivity]. }
        split.
        + intros X o A. inv A.
          * match goal with A1 : ExsSpec.alone _ _ _ _ b _ _, B1 : ExsSpec.alone _ _ _ _ oe _ _ |- _ => exact (X _ A1 _ B1) end.
          * match goal with A1 : ExsSpec.alone _ _ _ _ b _ _, F1 : find_handler _ _ _ _ _ = Some ?h, B1 : ExsSpec.alone _ _ _ _ ?h _ _ |- _ =>
              pose proof (proj1 (DD _ _) (X _ A1)) as Y; rewrite F1 in Y; exact (Y _ B1) end.
          * match goal with A1 : ExsSpec.alone _ _ _ _ b _ _, F1 : find_handler _ _ _ _ _ = None |- _ =>
              pose proof (proj1 (DD _ _) (X _ A1)) as Y; rewrite F1 in Y; exact Y end.
          * match goal with A1 : ExsSpec.alone _ _ _ _ b _ _, P1 : passes _ _ _ |- _ => specialize (X _ A1); destruct o; try exact X; destruct P1 end.
        + intros X o A. destruct o as [s | s | e s | s | s|].
          * intros o B. exact (X _ (A_try _ _ _ _ _ _ _ _ _ _ A B)).
          * exact (X _ (A_try_out _ _ _ _ _ _ _ _ _ A Logic.I)).
          * apply DD. destruct (find_handler St Exn isa e hs) as [h|] eqn:F.
            -- intros o B. exact (X _ (A_try_caught _ _ _ _ _ _ _ _ _ _ _ _ A F B)).
            -- exact (X _ (A_try_uncaught _ _ _ _ _ _ _ _ _ _ A F)).
          * exact (X _ (A_try_out _ _ _ _ _ _ _ _ _ A Logic.I)).
          * exact (X _ (A_try_out _ _ _ _ _ _ _ _ _ A Logic.I)).
          * exact (X _ (A_try_out _ _ _ _ _ _ _ _ _ A Logic.I)).
      - (* while *)
        intros inv fr c b IHb [].
      - (* break *)
        intros LF ts L Q Qs H End W (_ & HL & _) st ev N. cbn. rewrite (HL LBreak); [|discriminate|exact N]. split.
        + intros X o A. inv A. exact X.
        + intros X. exact (X _ (A_break _ _ _ _ _)).
      - intros LF ts L Q Qs H End W (_ & HL & _) st ev N. cbn. rewrite (HL LCont); [|discriminate|exact N]. split.
        + intros X o A. inv A. exact X.
        + intros X. exact (X _ (A_continue _ _ _ _ _)).
      - (* no handlers *)
        intros LF ts L Q Qs H End W E [|n] st ev N; cbn; reflexivity.
      - intros c h IHh hs IHhs (LFh & LFs) ts L Q Qs H End W E [|n] st ev N; cbn.
        + apply IHh; auto.
        + apply IHhs; auto.
    Qed.

    (** One direction, for all statements. *)
    Definition env_ok1 (L : label -> assn St Exn) (Q : assn St Exn) (Qs : St -> Prop) (H : label -> St -> Prop) (End : St -> option Exn -> Prop) : Prop :=
      (forall s ev, ev Merr = None -> Q s ev -> Qs s) /\
      (forall l s ev, l <> LEnd -> ev Merr = None -> L l s ev -> H l s) /\
      (forall s ev, L LEnd s ev -> End s (ev Merr)).
    Definition sound (s : stmt St Exn) : Prop :=
      forall ts L Q Qs H End, wf ts -> env_ok1 L Q Qs H End ->
      forall st ev, ev Merr = None ->
        wp (tr St Exn meth k ts s) L Q st ev -> forall o, alone s st o -> ok Qs H End ts o.
    Definition sound_h (hs : handlers St Exn) : Prop :=
      forall ts L Q Qs H End, wf ts -> env_ok1 L Q Qs H End ->
      forall n st ev, ev Merr = None ->
        wp_h St Exn isa meth havocs (tr_h St Exn meth k ts hs) L Q n st ev ->
        match nth_h n hs with Some h => forall o, alone h st o -> ok Qs H End ts o | None => False end.

    Lemma raise_ok1 ts L Q Q' Qs H End st ev e : env_ok1 L Q Qs H End -> wf ts -> ev Merr = None ->
      wp (catchers (error_var St Exn k ts) ts) L Q' st (upd Exn ev (error_var St Exn k ts) (Some e)) ->
      ok Qs H End ts (Raised e st).
    Proof.
      intros (_ & HL & HE) W N. rewrite (wp_catchers _ _ _ _ _ _ e); [|apply upd_same]. cbn [ok].
      destruct (dest e ts) as [l|] eqn:D.
      - destruct (dest_lt e ts _ W l D) as (i & m & -> & _). apply HL; [discriminate|].
        destruct (error_var_cases ts) as [(_ & -> & _) | X]; [discriminate D|]. rewrite (upd_other _ _ _ X). exact N.
      - destruct (declares k); [|auto]. intros X. apply HE in X. rewrite upd_same in X. exact X.
    Qed.

    Lemma code_sound : forall s, sound s.
    Proof.
      apply (stmt_mut St Exn sound sound_h); unfold sound, sound_h.
      - intros ts L Q Qs H End W (HQ & _) st ev N X o A. inv A. exact (HQ _ _ N X).
      - intros f ts L Q Qs H End W (HQ & _) st ev N X o A. inv A. exact (HQ _ _ N X).
      - intros c ts L Q Qs H End W (HQ & _) st ev N (C & X) o A. inv A; [exact (HQ _ _ N X)|congruence].
      - intros a IHa b IHb ts L Q Qs H End W E st ev N X o A. cbn in X.
        assert (E' : env_ok1 L (wp (tr St Exn meth k ts b) L Q) (fun s => forall o, alone b s o -> ok Qs H End ts o) H End).
        { pose proof E as (HQ & HL & HE). split; [|split; [exact HL|exact HE]].
          intros s ev' N' X'. exact (IHb ts L Q Qs H End W E s ev' N' X'). }
        pose proof (IHa ts L _ _ H End W E' st ev N X) as Y. inv A.
        + match goal with A1 : ExsSpec.alone _ _ _ _ a _ _, B1 : ExsSpec.alone _ _ _ _ b _ _ |- _ => exact (Y _ A1 _ B1) end.
        + match goal with A1 : ExsSpec.alone _ _ _ _ a _ _, B1 : forall _, _ <> _ |- _ =>
            specialize (Y _ A1); destruct o; try exact Y; destruct (B1 _ eq_refl) end.
      - intros c a IHa b IHb ts L Q Qs H End W E st ev N X o A. cbn in X. inv A.
        destruct (c st); [exact (IHa ts L Q Qs H End W E st ev N X o ltac:(assumption))|exact (IHb ts L Q Qs H End W E st ev N X o ltac:(assumption))].
      - intros f ts L Q Qs H End W (_ & _ & HE) st ev N X o A. cbn in X. apply HE in X. rewrite N in X. inv A. exact X.
      - intros e ts L Q Qs H End W E st ev N X o A. cbn [tr ExsModel.wp] in X. inv A. exact (raise_ok1 ts L Q Q Qs H End st ev (e st) E W N X).
      - intros m d en lv ts L Q Qs H End W E st ev N X o A. cbn [tr] in X.
        destruct (declares (sig (meth m))) eqn:D; cbn [ExsModel.wp] in X; destruct X as (R & X); inv A; try contradiction;
          match goal with K : ExsSpec.keeps _ _ _ _ _ _ |- _ => rename K into K8 end.
        + specialize (X s' None (proj2 (posts_none _ _ _) K8)). rewrite wp_catchers_none in X; [|apply upd_same].
          destruct E as (HQ & _). cbn. refine (HQ _ _ _ X).
          destruct (error_var_cases ts) as [(-> & _) | Z]; [apply upd_same|rewrite (upd_other _ _ _ Z); exact N].
        + specialize (X s' (Some e) (proj2 (posts_some _ _ _ _ D) K8)). exact (raise_ok1 ts L Q Q Qs H End _ ev e E W N X).
        + specialize (X s' None (proj2 (posts_none _ _ _) K8)). destruct E as (HQ & _). exact (HQ _ _ N X).
        + destruct (undeclared_raises _ _ _ _ D K8).
      - intros b IHb hs IHh oe IHo ts L Q Qs H End W E st ev N X o A. cbn [tr ExsModel.wp] in X.
        set (i := length ts) in *.
        set (H' := fun l s => match l with
                     | LHandler j n => if i =? j then match nth_h n hs with Some h => forall o, alone h s o -> ok Qs H End ts o | None => False end else H l s
                     | _ => H l s end).
        assert (W' : wf ((i, classes St Exn hs) :: ts)).
        { constructor; [cbn; auto|]. unfold wf in W. revert W. apply Forall_impl. cbn. intros t Y. lia. }
        assert (E' : env_ok1 (fun l => match l with
                       | LHandler j n => if i =? j then wp_h St Exn isa meth havocs (tr_h St Exn meth k ts hs) L Q n else L l
                       | _ => L l end) (wp (tr St Exn meth k ts oe) L Q) (fun s => forall o, alone oe s o -> ok Qs H End ts o) H' End).
        { pose proof E as (HQ & HL & HE). split; [|split].
          - intros s ev' N' X'. exact (IHo ts L Q Qs H End W E s ev' N' X').
          - intros [|j n | |] s ev' NE N'; [congruence| |apply HL; auto|apply HL; auto]. cbn.
            destruct (i =? j); [exact (IHh ts L Q Qs H End W E n s ev' N')|apply HL; auto].
          - exact HE. }
        pose proof (IHb _ _ _ _ _ _ W' E' st ev N X) as Y.
        assert (DD : forall e s, ok (fun s => forall o, alone oe s o -> ok Qs H End ts o) H' End ((i, classes St Exn hs) :: ts) (Raised e s) ->
                     match find_handler St Exn isa e hs with
                     | Some h => forall o, alone h s o -> ok Qs H End ts o
                     | None => ok Qs H End ts (Raised e s)
                     end).
        { intros e s. cbn [ok]. unfold dest at 1. cbn [hcases flat_map fst snd]. rewrite find_app.
          pose proof (own_handler i hs 0 e) as O.
          destruct (find _ (number i 0 _)) as [(c, l)|], (find_handler St Exn isa e hs) as [h|]; try contradiction.
          - destruct O as (n & -> & NH). cbn. rewrite Nat.eqb_refl, NH. auto.
          - fold (hcases ts). change (option_map snd (find (fun c => isa e (fst c)) (hcases ts))) with (dest e ts).
            destruct (dest e ts) as [l|] eqn:D; [|auto].
            destruct (dest_lt e ts _ W l D) as (j & m & -> & LT). cbn. destruct (Nat.eqb_spec i j); [lia|auto]. }
        inv A.
        + match goal with A1 : ExsSpec.alone _ _ _ _ b _ _, B1 : ExsSpec.alone _ _ _ _ oe _ _ |- _ => exact (Y _ A1 _ B1) end.
        + match goal with A1 : ExsSpec.alone _ _ _ _ b _ _, F1 : find_handler _ _ _ _ _ = Some ?h, B1 : ExsSpec.alone _ _ _ _ ?h _ _ |- _ =>
            pose proof (DD _ _ (Y _ A1)) as Z; rewrite F1 in Z; exact (Z _ B1) end.
        + match goal with A1 : ExsSpec.alone _ _ _ _ b _ _, F1 : find_handler _ _ _ _ _ = None |- _ =>
            pose proof (DD _ _ (Y _ A1)) as Z; rewrite F1 in Z; exact Z end.
        + match goal with A1 : ExsSpec.alone _ _ _ _ b _ _, P1 : passes _ _ _ |- _ => specialize (Y _ A1); destruct o; try exact Y; destruct P1 end.
      - (* while *)
        intros inv fr c b IHb ts L Q Qs H End W (HQ & HL & HE) st ev N X o A. cbn [tr ExsModel.wp] in X.
        destruct X as (I0 & X).
        set (H' := fun l s => match l with LBreak => Qs s | LCont => inv s = true | _ => H l s end).
        assert (R : forall s ev, ev Merr = None -> wp (if declares k then VNull St Exn Merr else VSkip St Exn) L Q s ev -> Qs s).
        { intros s ev' N' Y. destruct (declares k); cbn in Y; refine (HQ _ _ _ Y); [apply upd_same|exact N']. }
        assert (Y : forall s1, fr st s1 -> inv s1 = true -> c s1 = true -> forall o, alone b s1 o -> ok (fun s => inv s = true) H' End ts o).
        { intros s1 F I1 C o' B. specialize (X s1 ev F I1 (fun _ _ => eq_refl)). rewrite C in X.
          refine (IHb ts _ _ _ H' End W _ s1 ev N X o' B). split; [|split].
          - intros s ev' _ Z. exact Z.
          - intros [|j n | |] s ev' NE N' Z; cbn; [congruence|exact (HL _ _ _ NE N' Z)|exact (R _ _ N' Z)|exact Z].
          - exact HE. }
        inv A.
        + congruence.
        + specialize (X _ ev ltac:(eassumption) ltac:(assumption) (fun _ _ => eq_refl)).
          match goal with C : c _ = false |- _ => rewrite C in X end. exact (R _ _ N X).
        + match goal with F : fr _ _, I1 : inv ?s = true, C : c ?s = true, B : ExsSpec.alone _ _ _ _ b ?s _ |- _ => exact (Y s F I1 C _ B) end.
        + match goal with F : fr _ _, I1 : inv ?s = true, C : c ?s = true, B : ExsSpec.alone _ _ _ _ b ?s _ |- _ => pose proof (Y s F I1 C _ B) as Z end.
          match goal with D : _ \/ _ |- _ => destruct D as [-> | ->] end; cbn in Z; congruence.
        + match goal with F : fr _ _, I1 : inv ?s = true, C : c ?s = true, B : ExsSpec.alone _ _ _ _ b ?s _ |- _ => pose proof (Y s F I1 C _ B) as Z end.
          match goal with D : ExsSpec.leaves _ _ _ |- _ => destruct o; try destruct D; cbn in Z |- * end; try exact Z.
          destruct (dest e ts) as [l|] eqn:D; [|exact Z]. destruct (dest_lt e ts _ W l D) as (j & m & -> & _). exact Z.
      - intros ts L Q Qs H End W (_ & HL & _) st ev N X o A. inv A. cbn in *. exact (HL LBreak _ _ ltac:(discriminate) N X).
      - intros ts L Q Qs H End W (_ & HL & _) st ev N X o A. inv A. cbn in *. exact (HL LCont _ _ ltac:(discriminate) N X).
      - intros ts L Q Qs H End W E [|n] st ev N X; exact X.
      - intros c h IHh hs IHhs ts L Q Qs H End W E [|n] st ev N X; cbn in *.
        + exact (IHh ts L Q Qs H End W E st ev N X).
        + exact (IHhs ts L Q Qs H End W E n st ev N X).
    Qed.
  End K.

  Lemma verified_iff m : (forall b, body m = Some b -> loop_free St Exn b) ->
    (verified St Exn isa meth havocs m <-> correct_alone St Exn isa meth m).
  Proof.
    unfold verified, correct_alone. destruct (body m) as [b|]; [|split; [discriminate|auto]].
    intros LF. specialize (LF b eq_refl).
    set (k := sig m).
    assert (X : forall s ev, ev Merr = None ->
      (wp (tr St Exn meth k [] b) (fun l => match l with LEnd => fun s' ev' => posts_hold k s s' (ev' Merr) | _ => fun _ _ => False end)
         (fun s' ev' => posts_hold k s s' (ev' Merr)) s ev <->
       forall o, alone St Exn isa meth b s o -> keeps k s o)).
    { intros s ev N.
      rewrite (code k b LF [] _ _ (fun s' => keeps k s (Norm s')) (fun _ _ => False) (fun s' err => posts_hold k s s' err)).
      - split; intros Y o A; specialize (Y o A); destruct o as [s' | s' | e s' | s' | s'|]; cbn [ok] in *; try exact Y.
        + apply posts_none in Y. exact Y.
        + unfold dest in Y. cbn in Y. destruct (declares k) eqn:D; [apply posts_some; auto|destruct Y].
        + apply posts_none. exact Y.
        + unfold dest. cbn. destruct (declares k) eqn:D; [apply posts_some; auto|]. exact (undeclared_raises _ _ _ _ D Y).
      - constructor.
      - split; [|split].
        + intros s' ev' N'. rewrite N'. apply posts_none.
        + intros [|i n | |] s' ev' NE _; [congruence|reflexivity|reflexivity|reflexivity].
        + reflexivity.
      - exact N. }
    split.
    - intros V b0 s o E R A. injection E as <-. specialize (V s (fun _ => None) R). cbn zeta in V. rewrite X in V; [exact (V o A)|reflexivity].
    - intros V s ev R. cbn zeta. rewrite X; [|reflexivity]. intros o A. exact (V b s o eq_refl R A).
  Qed.

  Lemma verified_sound m : verified St Exn isa meth havocs m -> correct_alone St Exn isa meth m.
  Proof.
    unfold verified, correct_alone. intros V b s o E R A. rewrite E in V. set (k := sig m) in *.
    specialize (V s (fun _ => None) R). cbn zeta in V.
    pose proof (fun Z => code_sound k b [] _ _ (fun s' => keeps k s (Norm s')) (fun _ _ => False) (fun s' err => posts_hold k s s' err)
      (Forall_nil _) Z s _ eq_refl V o A) as Y.
    assert (Z : ok k (fun s' => keeps k s (Norm s')) (fun _ _ => False) (fun s' err => posts_hold k s s' err) [] o).
    { apply Y. split; [|split].
      - intros s' ev' N' X. rewrite N' in X. apply posts_none, X.
      - intros [|i n | |] s' ev' NE _ X; [congruence|exact X|exact X|exact X].
      - auto. }
    destruct o as [s' | s' | e s' | s' | s'|]; cbn [ok] in Z; try exact Z.
    - apply posts_none in Z. exact Z.
    - unfold dest in Z. cbn in Z. destruct (declares k) eqn:D; [apply posts_some; auto|destruct Z].
  Qed.

  (** ** Overriding *)
  Variable sub_cls : nat -> nat -> bool.
  Lemma override_refines sub sup : override_verified St Exn isa sub_cls sub sup -> refines St Exn isa sub sup.
  Proof.
    intros (V & O) s R. destruct (O s None R) as (R' & P). split; [exact R'|].
    intros o NL K. destruct o as [s' | s' | e s' | s' | s'|]; [| | |destruct K|destruct K|congruence].
    - apply posts_none. specialize (P s' None (proj2 (posts_none _ _ _) K)). destruct (declares sub); exact P.
    - change (keeps sup s (Ret s')) with (keeps sup s (Norm s')). change (keeps sub s (Ret s')) with (keeps sub s (Norm s')) in K.
      apply posts_none. specialize (P s' None (proj2 (posts_none _ _ _) K)). destruct (declares sub); exact P.
    - destruct (declares sub) eqn:D; [|destruct (undeclared_raises _ _ _ _ D K)].
      assert (D' : declares sup = true).
      { destruct (declares_true _ D) as (c & p & I). destruct (class_declared _ _ _ I) as (ps & J).
        unfold valid_exceptions in V. rewrite forallb_forall in V. specialize (V _ J).
        unfold ExsModel.declares. destruct (declared sup); [discriminate V|reflexivity]. }
      apply posts_some; [exact D'|]. apply P. apply posts_some; assumption.
  Qed.

  Lemma override_complete sub sup : refines St Exn isa sub sup ->
    (forall c p, In (c, p) (exsures sub) -> exists c' p', In (c', p') (exsures sup) /\ sub_cls c c' = true) ->
    (exsures sup <> [] -> exsures sub <> []) ->
    override_verified St Exn isa sub_cls sub sup.
  Proof.
    intros RF C X. split.
    - unfold valid_exceptions. apply forallb_forall. intros (c, ps) I. destruct (declared_class _ _ _ I) as (p & J).
      destruct (C c p J) as (c' & p' & J' & S'). destruct (class_declared _ _ _ J') as (ps' & I').
      apply existsb_exists. exists (c', ps'). auto.
    - intros s err0 R. destruct (RF s R) as (R' & P). split; [exact R'|]. intros s' err H.
      destruct (declares sub) eqn:D.
      + destruct err as [e|].
        * assert (D' : declares sup = true).
          { destruct (declares sup) eqn:D'; [reflexivity|]. destruct (declares_true _ D) as (c & p & I).
            destruct (C c p I) as (c' & p' & J & _). rewrite (declares_false _ D') in J. destruct J. }
          apply posts_some; [exact D'|]. apply P; [discriminate|]. apply posts_some; assumption.
        * apply posts_none. apply P; [discriminate|]. apply posts_none; assumption.
      + assert (D' : declares sup = false).
        { destruct (declares sup) eqn:D'; [|reflexivity]. destruct (declares_true _ D') as (c & p & I).
          exfalso. apply X; [intros Z; rewrite Z in I; destruct I|]. apply declares_false, D. }
        apply (posts_undeclared _ _ _ _ D'). apply P; [discriminate|]. apply (posts_undeclared _ _ _ err D), H.
  Qed.

  Lemma refines_chain : program_verified St Exn isa meth havocs sub_cls ->
    forall m m', clos_refl_trans nat (overriding St Exn meth) m m' -> refines St Exn isa (sig (meth m)) (sig (meth m')).
  Proof.
    intros (_ & O) m m' C. induction C as [m m' S | m | m m1 m2 _ IH1 _ IH2].
    - apply override_refines, O, S.
    - intros s R. split; auto.
    - intros s R. destruct (IH2 s R) as (R1 & P1). destruct (IH1 s R1) as (R2 & P2). split; [exact R2|]. intros o N K. auto.
  Qed.

  (** ** Whole programs *)
  Lemma whole : program_verified St Exn isa meth havocs sub_cls -> well_typed St Exn isa meth ->
    forall m s o, runs St Exn isa meth m s o -> holds (requires (sig (meth m))) s -> keeps (sig (meth m)) s o.
  Proof.
    intros PV WT.
    apply (runs_mut St Exn isa meth
      (fun s st o => typed St Exn isa meth s -> alone St Exn isa meth s st o \/ alone St Exn isa meth s st Lost)
      (fun m st o => holds (requires (sig (meth m))) st -> keeps (sig (meth m)) st o)).
    - left; constructor.
    - left; constructor.
    - left; constructor; assumption.
    - left; constructor; assumption.
    - intros a b s s' o _ IHa _ IHb (Ta & Tb). destruct (IHa Ta) as [A | A]; [|right; apply A_seq_end; [exact A|discriminate]].
      destruct (IHb Tb) as [B | B]; [left|right]; exact (A_seq _ _ _ _ _ _ _ _ _ A B).
    - intros a b s o _ IHa N (Ta & Tb). destruct (IHa Ta) as [A | A]; [left; apply A_seq_end; assumption|right; apply A_seq_end; [exact A|discriminate]].
    - intros c a b s o _ IH (Ta & Tb). destruct IH as [A | A]; [destruct (c s); assumption|left; apply A_if; exact A|right; apply A_if; exact A].
    - left; constructor.
    - left; constructor.
    - intros m d en lv s o _ IH T. cbn in T.
      destruct (holds_dec (requires (sig (meth m))) (en s)) as [R | R]; [|right; apply A_call_lost; exact R].
      destruct (refines_chain PV _ _ (T s) (en s) R) as (R' & P). specialize (IH R').
      assert (K : keeps (sig (meth m)) (en s) o) by (apply P; [intros ->; exact IH|exact IH]).
      left. destruct o as [s' | s' | e s' | s' | s'|].
      + apply A_call; assumption.
      + apply A_call; assumption.
      + apply A_call_raise; assumption.
      + destruct K.
      + destruct K.
      + destruct K.
    - intros b hs oe s s' o _ IHb _ IHo (Tb & Th & To). destruct (IHb Tb) as [A | A]; [|right; exact (A_try_out _ _ _ _ _ _ _ _ _ A Logic.I)].
      destruct (IHo To) as [B | B]; [left|right]; exact (A_try _ _ _ _ _ _ _ _ _ _ A B).
    - intros b hs oe s e s' h o _ IHb F _ IHh (Tb & Th & To). destruct (IHb Tb) as [A | A]; [|right; exact (A_try_out _ _ _ _ _ _ _ _ _ A Logic.I)].
      assert (T' : typed St Exn isa meth h).
      { clear - Th F. induction hs as [|c h' hs IH]; cbn in *; [discriminate|]. destruct (isa e c); [|apply IH; tauto].
        injection F as <-. tauto. }
      destruct (IHh T') as [B | B]; [left|right]; exact (A_try_caught _ _ _ _ _ _ _ _ _ _ _ _ A F B).
    - intros b hs oe s e s' _ IHb F (Tb & Th & To). destruct (IHb Tb) as [A | A]; [left; apply A_try_uncaught; assumption|right; exact (A_try_out _ _ _ _ _ _ _ _ _ A Logic.I)].
    - intros b hs oe s o _ IHb P (Tb & Th & To). destruct (IHb Tb) as [A | A]; [left; exact (A_try_out _ _ _ _ _ _ _ _ _ A P)|right; exact (A_try_out _ _ _ _ _ _ _ _ _ A Logic.I)].
    - intros inv fr c b s C (Tb & F1 & F2 & F3). destruct (inv s) eqn:IV; [|right; apply A_while_start; exact IV].
      left. exact (A_while_done _ _ _ _ _ _ _ _ _ _ IV (F1 s) IV C).
    - intros inv fr c b s o s' o' C B IHb D _ IHw (Tb & F1 & F2 & F3). specialize (IHw (conj Tb (conj F1 (conj F2 F3)))).
      destruct (inv s) eqn:IV; [|right; apply A_while_start; exact IV].
      assert (F : fr s s') by (apply F3; destruct D as [-> | ->]; auto).
      destruct (IHb Tb) as [A | A]; [|right; exact (A_while_out _ _ _ _ _ _ _ _ _ _ _ IV (F1 s) IV C A Logic.I)].
      destruct (inv s') eqn:IV'; [|right; exact (A_while_step _ _ _ _ _ _ _ _ _ _ _ _ IV (F1 s) IV C A D IV')].
      assert (M : forall o, alone St Exn isa meth (SWhile inv fr c b) s' o -> alone St Exn isa meth (SWhile inv fr c b) s o).
      { intros o0 Z. inversion Z; subst; clear Z; try congruence;
          match goal with F' : fr s' _ |- _ => pose proof (F2 _ _ _ F F') as F4 end.
        - eapply A_while_done; eassumption.
        - eapply A_while_break; eassumption.
        - eapply A_while_step; eassumption.
        - eapply A_while_out; eassumption. }
      destruct IHw as [Z | Z]; [left|right]; exact (M _ Z).
    - intros inv fr c b s s' C _ IHb (Tb & F1 & F2 & F3). destruct (inv s) eqn:IV; [|right; apply A_while_start; exact IV].
      destruct (IHb Tb) as [A | A]; [left; exact (A_while_break _ _ _ _ _ _ _ _ _ _ _ IV (F1 s) IV C A)|right; exact (A_while_out _ _ _ _ _ _ _ _ _ _ _ IV (F1 s) IV C A Logic.I)].
    - intros inv fr c b s o C _ IHb LV (Tb & F1 & F2 & F3). destruct (inv s) eqn:IV; [|right; apply A_while_start; exact IV].
      destruct (IHb Tb) as [A | A]; [left; exact (A_while_out _ _ _ _ _ _ _ _ _ _ _ IV (F1 s) IV C A LV)|right; exact (A_while_out _ _ _ _ _ _ _ _ _ _ _ IV (F1 s) IV C A Logic.I)].
    - left; constructor.
    - left; constructor.
    - intros m b s o B _ IH R. pose proof (proj1 PV m) as V. apply verified_sound in V.
      destruct (IH (WT m b B)) as [A | A]; [exact (V b s o B R A)|destruct (V b s Lost B R A)].
    - intros m s o _ _ K _. exact K.
    - intros m s _ N R. contradiction.
  Qed.
End P.
