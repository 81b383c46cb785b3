(** Property C75: the diagnostics that an editor shows. *)
From Coq Require Import List Arith ZArith NArith Bool Lia.
From Verif Require Import LspModel LspSpec LspProofs.
Import ListNotations.

(** Files with content 1 have an error in the function 7, files with content 2 are rejected
    by the translation. *)
Definition diag (l : Z) : diagnostic :=
  {| d_file := 0; d_start_line := l; d_start_col := 4; d_end_line := l; d_end_col := 9; d_message := 5; d_info := Some 3 |}.
Definition ex : env := {|
  translate := fun _ c _ => if c =? 2 then Some [diag 1] else None;
  verdict := fun _ c x => if c =? 1 then match x with None | Some 7 => [diag 8] | _ => [] end else [] |}.
Definition all (i : nat) : list event := [Take i; Translate i; Register i; Finish i; Await i; Deregister i; Publish i].

(** ** What is shown for a document is the result of a verification of this document that was
    requested, for a content that the file had after the request, whatever else runs *)
Theorem C75_shown_sound : forall E f es s d ls, exec E es (init f) = Some s -> published s d = Some ls ->
  exists i x e1 e2 s1, es = e1 ++ e2 /\ exec E e1 (init f) = Some s1 /\ i < n s1 /\ r_doc (runs s1 i) = d /\
    r_sel (runs s1 i) = x /\ ls = map (to_lsp d) (outcome E d (file s1 d) x).
Proof. exact shown_sound. Qed.
Print Assumptions C75_shown_sound.
Example C75_shown_sound_ex : exists s,
  exec ex (Request 0 None :: Request 4 None :: all 0 ++ all 1) (init (fun d => if d =? 0 then 1 else 0)) = Some s /\
  published s 0 = Some [to_lsp 0 (diag 8)] /\ published s 4 = Some [] /\ published s 3 = None.
Proof.
  match goal with |- exists s, exec ?E ?es ?i = _ /\ _ =>
    destruct (exec_view (fun s => (published s 0, published s 4, published s 3)) (Some [to_lsp 0 (diag 8)], Some [], None) E es i) as (s & X & H); [vm_compute; reflexivity|] end.
  exists s. split; [exact X|]. injection H as H1 H2 H3. auto.
Qed.

(** ** Only verifications that are superseded by a newer one of the same document are
    cancelled *)
Theorem C75_superseded : forall E f es s i, exec E es (init f) = Some s -> i < n s -> was_cancelled (runs s i) ->
  exists k, i < k < n s /\ r_doc (runs s k) = r_doc (runs s i).
Proof. exact cancelled_superseded. Qed.
Print Assumptions C75_superseded.
Example C75_superseded_ex : exists s,
  exec ex [Request 0 None; Request 4 None; Take 0; Take 1; Translate 0; Translate 1; Register 0; Register 1; Request 0 None; Await 0]
    (init (fun _ => 1)) = Some s /\ was_cancelled (runs s 0) /\ ~ was_cancelled (runs s 1) /\ n s = 3.
Proof.
  match goal with |- exists s, exec ?E ?es ?i = _ /\ _ =>
    destruct (exec_view (fun s => (r_phase (runs s 0), runs s 1, n s)) (Awaited None, {| r_doc := 4; r_sel := None; r_phase := Registered 1; r_job := JPending |}, 3) E es i) as (s & X & H); [vm_compute; reflexivity|] end.
  exists s. split; [exact X|]. injection H as H1 H2 H3. split; [right; left; exact H1|]. split; [|exact H3].
  rewrite H2. intros [H|[H|H]]; discriminate.
Qed.

(** ** When all verifications of a document have ended, the editor shows the result for its
    current content, if at the last request every earlier one had ended, was cancelled or
    could be cancelled ... *)
Theorem C75_current_partial : forall E f e1 e2 s1 s d x, exec E e1 (init f) = Some s1 -> settled s1 d ->
  Forall (fun e => match e with Write d' _ | Request d' _ => d' <> d | _ => True end) e2 ->
  exec E (e1 ++ Request d x :: e2) (init f) = Some s -> quiet s d ->
  published s d = Some (map (to_lsp d) (outcome E d (file s d) x)).
Proof. exact current. Qed.
Print Assumptions C75_current_partial.
Example C75_current_ex : exists s1 s,
  exec ex [Request 0 None; Take 0; Translate 0; Register 0; Write 0 1] (init (fun _ => 0)) = Some s1 /\ settled s1 0 /\
  exec ex ([Request 0 None; Take 0; Translate 0; Register 0; Write 0 1] ++ Request 0 None :: (Await 0 :: all 1) ++ [Deregister 0; Publish 0])
    (init (fun _ => 0)) = Some s /\ quiet s 0 /\ published s 0 = Some [to_lsp 0 (diag 8)].
Proof.
  match goal with |- exists s1 s, exec ?E ?es ?i = _ /\ _ /\ exec ?E2 ?es2 ?i2 = _ /\ _ =>
    destruct (exec_view (fun s => (n s, table s 0, r_job (runs s 0))) (1, Some 0, JPending) E es i) as (s1 & X1 & H); [vm_compute; reflexivity|];
    destruct (exec_view (fun s => (n s, r_phase (runs s 0), r_phase (runs s 1), published s 0)) (2, Done, Done, Some [to_lsp 0 (diag 8)]) E2 es2 i2) as (s & X & K); [vm_compute; reflexivity|] end.
  exists s1, s. split; [exact X1|].
  injection H as H1 H2 H3. injection K as K1 K2 K3 K4. split.
  { intros [|i] L _; [right; right; auto|lia]. }
  split; [exact X|]. split; [|exact K4]. intros [|[|i]] L _; auto; lia.
Qed.

(** ... but not in general: a verification that is being translated when the next request
    comes, or one whose result is being processed, is not cancelled, and its outdated result
    replaces the newer one. In both schedules the file has an error, the newest verification
    has reported it, and the editor shows none. *)
Theorem C75_current_refuted : exists E f d es1 es2 s1 s2,
  exec E (es1 ++ Request d None :: es2) (init f) = Some s2 /\ exec E es1 (init f) = Some s1 /\ all_done s2 /\
  Forall (fun e => match e with Write _ _ | Request _ _ => False | _ => True end) es2 /\
  outcome E d (file s2 d) None <> [] /\ published s2 d = Some [] /\
  (exists c, r_phase (runs s1 0) = Submitted c).
Proof.
  exists ex, (fun _ => 0), 0, [Request 0 None; Take 0; Translate 0; Write 0 1], (Register 0 :: all 1 ++ [Finish 0; Await 0; Deregister 0; Publish 0]).
  match goal with |- exists s1 s2, exec ?E2 ?es2 ?i2 = _ /\ exec ?E ?es ?i = _ /\ _ =>
    destruct (exec_view (fun s => r_phase (runs s 0)) (Submitted 0) E es i) as (s1 & X1 & H); [vm_compute; reflexivity|];
    destruct (exec_view (fun s => (n s, r_phase (runs s 0), r_phase (runs s 1), file s 0, published s 0)) (2, Done, Done, 1, Some []) E2 es2 i2) as (s2 & X & K); [vm_compute; reflexivity|] end.
  exists s1, s2. split; [exact X|]. split; [exact X1|].
  injection K as K1 K2 K3 K4 K5. split; [intros [|[|i]] L; auto; lia|].
  split; [repeat constructor|]. split; [rewrite K4; discriminate|]. split; [exact K5|]. exists 0. exact H.
Qed.
Print Assumptions C75_current_refuted.
Theorem C75_current_finished_refuted : exists E f d es1 es2 s1 s2,
  exec E (es1 ++ Request d None :: es2) (init f) = Some s2 /\ exec E es1 (init f) = Some s1 /\ all_done s2 /\
  Forall (fun e => match e with Write _ _ | Request _ _ => False | _ => True end) es2 /\
  outcome E d (file s2 d) None <> [] /\ published s2 d = Some [] /\
  (table s1 d = Some 0 /\ r_job (runs s1 0) = JFinished).
Proof.
  exists ex, (fun _ => 0), 0, [Request 0 None; Take 0; Translate 0; Register 0; Finish 0; Write 0 1], (all 1 ++ [Await 0; Deregister 0; Publish 0]).
  match goal with |- exists s1 s2, exec ?E2 ?es2 ?i2 = _ /\ exec ?E ?es ?i = _ /\ _ =>
    destruct (exec_view (fun s => (table s 0, r_job (runs s 0))) (Some 0, JFinished) E es i) as (s1 & X1 & H); [vm_compute; reflexivity|];
    destruct (exec_view (fun s => (n s, r_phase (runs s 0), r_phase (runs s 1), file s 0, published s 0)) (2, Done, Done, 1, Some []) E2 es2 i2) as (s2 & X & K); [vm_compute; reflexivity|] end.
  exists s1, s2. split; [exact X|]. split; [exact X1|].
  injection K as K1 K2 K3 K4 K5. split; [intros [|[|i]] L; auto; lia|].
  split; [repeat constructor|]. split; [rewrite K4; discriminate|]. split; [exact K5|]. clear X X1. injection H as H1 H2. split; [exact H1|exact H2].
Qed.
Print Assumptions C75_current_finished_refuted.

(** ** A document without shown errors need not be correct: "Verify method" replaces the
    diagnostics of the whole document by those of one function *)
Theorem C75_no_errors_refuted : exists E f d es s, exec E es (init f) = Some s /\ all_done s /\
  In (Request d None) es /\ Forall (fun e => match e with Write _ _ => False | _ => True end) es /\
  published s d = Some [] /\ outcome E d (file s d) None <> [].
Proof.
  exists ex, (fun _ => 1), 0, (Request 0 None :: all 0 ++ Request 0 (Some 6) :: all 1).
  match goal with |- exists s, exec ?E ?es ?i = _ /\ _ =>
    destruct (exec_view (fun s => (n s, r_phase (runs s 0), r_phase (runs s 1), file s 0, published s 0)) (2, Done, Done, 1, Some []) E es i) as (s & X & K); [vm_compute; reflexivity|] end.
  exists s. split; [exact X|]. injection K as K1 K2 K3 K4 K5. split; [intros [|[|i]] L; auto; lia|].
  split; [cbn; auto|]. split; [repeat constructor|]. split; [exact K5|rewrite K4; discriminate].
Qed.
Print Assumptions C75_no_errors_refuted.

(** ** No verification is stuck: from every state all of them can end *)
Theorem C75_ends : forall E s, exists es s',
  Forall (fun e => match e with Write _ _ | Request _ _ => False | _ => True end) es /\
  exec E es s = Some s' /\ n s' = n s /\ all_done s'.
Proof. exact can_end. Qed.
Print Assumptions C75_ends.
Example C75_ends_ex : exists s, exec ex [Request 0 None; Request 0 None; Request 1 None; Request 2 None; Request 3 None; Request 4 None;
    Take 0; Take 1; Take 2; Take 3] (init (fun _ => 1)) = Some s /\ step ex (Take 4) s = None /\ step ex (Translate 3) s <> None.
Proof.
  match goal with |- exists s, exec ?EE ?es ?i = _ /\ _ =>
    destruct (exec_view (fun s => match step ex (Take 4) s, step ex (Translate 3) s with None, Some _ => true | _, _ => false end) true EE es i)
      as (s & X & K); [vm_compute; reflexivity|] end.
  exists s. split; [exact X|]. destruct (step ex (Take 4) s); [discriminate|]. split; [reflexivity|]. destruct (step ex (Translate 3) s); discriminate.
Qed.

(** ** What is shown on hovering belongs to a diagnostic of the line, among the shown ones, and
    something is shown if there is one *)
Theorem C75_hover : forall E f es s d, exec E es (init f) = Some s ->
  match published s d with
  | None => forall line, hover s d line = None
  | Some sh => exists i e1 e2 s1, es = e1 ++ e2 /\ exec E e1 (init f) = Some s1 /\ i < n s1 /\ r_doc (runs s1 i) = d /\
      let ls := outcome E d (file s1 d) (r_sel (runs s1 i)) in
      sh = map (to_lsp d) ls /\
      forall line,
        (forall m, hover s d line = Some m -> exists y, In y ls /\ d_info y = Some m /\ (d_start_line y - 1 <= line <= d_end_line y - 1)%Z) /\
        (hover s d line = None -> forall y, In y ls -> (d_start_line y - 1 <= line <= d_end_line y - 1)%Z -> d_info y = None)
  end.
Proof. exact hover_shown. Qed.
Print Assumptions C75_hover.
Example C75_hover_ex : exists s, exec ex (Request 0 None :: all 0) (init (fun _ => 1)) = Some s /\
  hover s 0 7 = Some 3 /\ hover s 0 8 = None /\ hover s 1 7 = None.
Proof.
  match goal with |- exists s, exec ?E ?es ?i = _ /\ _ =>
    destruct (exec_view (fun s => (hover s 0 7%Z, hover s 0 8%Z, hover s 1 7%Z)) (Some 3, None, None) E es i) as (s & X & K); [vm_compute; reflexivity|] end.
  exists s. split; [exact X|]. injection K as K1 K2 K3. auto.
Qed.

(** ** Positions: lines are counted from 0 ... *)
Theorem C75_position : forall uri d,
  (1 <= d_start_line d)%Z -> (0 <= d_start_col d)%Z -> (1 <= d_end_line d)%Z -> (0 <= d_end_col d)%Z ->
  l_start (to_lsp uri d) = (d_start_line d - 1, d_start_col d)%Z /\ l_end (to_lsp uri d) = (d_end_line d - 1, d_end_col d)%Z /\
  l_message (to_lsp uri d) = d_message d.
Proof. exact position. Qed.
Print Assumptions C75_position.
Example C75_position_ex : l_start (to_lsp 0 (diag 8)) = (7, 4)%Z /\ l_end (to_lsp 0 (diag 8)) = (7, 9)%Z.
Proof. split; reflexivity. Qed.
(** ... columns of the k-th character, which Python counts in bytes of UTF-8 and the editor in
    units of UTF-16, are right after ASCII characters ... *)
Theorem C75_column_partial : forall line k, Forall (fun c => (c < 128)%N) (firstn k line) ->
  forall uri d, d_start_col d = offset utf8_len line k -> (0 <= d_start_col d)%Z ->
  snd (l_start (to_lsp uri d)) = offset utf16_len line k.
Proof. exact (fun line k A uri d H P => eq_trans (Z.max_l _ _ P) (eq_trans H (column_ascii line k A))). Qed.
Print Assumptions C75_column_partial.
Example C75_column_ex : offset utf8_len [97; 98; 233]%N 2 = 2%Z /\ Forall (fun c => (c < 128)%N) (firstn 2 [97; 98; 233]%N).
Proof. split; [reflexivity|]. repeat constructor. Qed.
(** ... but not after others. *)
Theorem C75_column_refuted : exists line k uri d, d_start_col d = offset utf8_len line k /\
  snd (l_start (to_lsp uri d)) <> offset utf16_len line k.
Proof.
  exists [233]%N, 1, 0, {| d_file := 0; d_start_line := 1; d_start_col := 2; d_end_line := 1; d_end_col := 2; d_message := 0; d_info := None |}.
  split; [reflexivity|discriminate].
Qed.
Print Assumptions C75_column_refuted.
(** The file of a diagnostic is ignored: errors in other files are shown in the document that
    was verified. *)
Theorem C75_file_refuted : exists uri d, l_uri (to_lsp uri d) <> d_file d.
Proof. exists 1, (diag 8). discriminate. Qed.
Print Assumptions C75_file_refuted.

(** ** The contract on hovering is looked up for the word at the position *)
Theorem C75_word_at : forall (A : Type) (isword : A -> bool) line char w, word_at isword line char = Some w ->
  exists a b, span isword line char a b /\ w = firstn (b - a) (skipn a line).
Proof. exact @word_at_span. Qed.
Print Assumptions C75_word_at.
Theorem C75_word_at_none : forall (A : Type) (isword : A -> bool) line char, word_at isword line char = None ->
  forall a b, ~ span isword line char a b.
Proof. exact @word_at_none. Qed.
Print Assumptions C75_word_at_none.
Example C75_word_at_ex : word_at (fun c => negb (c =? 0)) [0; 1; 2; 0; 3] 2 = Some [1; 2] /\
  word_at (fun c => negb (c =? 0)) [0; 1; 2; 0; 3] 3 = Some [1; 2] /\ word_at (fun c => negb (c =? 0)) [0; 0; 1] 1 = None /\
  word_at (fun c => negb (c =? 0)) [1] 2 = None.
Proof. repeat split. Qed.
