(** C56, continued: what the lines of the text of an exception look like. *)
From Coq Require Import Ascii String List Bool Lia Arith NArith.
From Verif Require Import Base ModelOptions Prop_Options.
Import ListNotations.
Open Scope list_scope.
Open Scope nat_scope.

Fixpoint ascii_text (s : string) : str := match s with EmptyString => [] | String c s => N_of_ascii c :: ascii_text s end.
(** e.g. "    at main (/foo/bar.py:8:4)" *)
Definition shows {A} (show : A -> str) (x : option A) (t : str) : Prop :=
  match x with Some a => t = show a | None => t = ascii_text "<unknown>" end.
Definition frame_shown (numeral : nat -> str) (f : frame) (t : str) : Prop :=
  (fr_file f = None /\ fr_line f = None /\ fr_col f = None /\
   t = ascii_text "    at " ++ fr_name f ++ ascii_text " (unknown location)" ++ [10%N]) \/
  (~ (fr_file f = None /\ fr_line f = None /\ fr_col f = None) /\
   exists file line col, shows (fun s => s) (fr_file f) file /\ shows numeral (fr_line f) line /\ shows numeral (fr_col f) col /\
   t = ascii_text "    at " ++ fr_name f ++ ascii_text " (" ++ file ++ ascii_text ":" ++ line ++ ascii_text ":" ++ col ++ ascii_text ")" ++ [10%N]).
Lemma frame_line_shown numeral f : frame_shown numeral f (frame_line numeral f).
Proof.
  unfold frame_line, frame_location. destruct f as [name file line col]. cbn [fr_file fr_line fr_col fr_name].
  destruct file as [file|], line as [line|], col as [col|].
  8: left; repeat (split; [reflexivity|]); reflexivity.
  all: right; split; [intros (A & B & C); discriminate|]; eexists _, _, _;
    (split; [reflexivity|split; [reflexivity|split; [reflexivity|]]]); unfold s_at, or_unknown, newline, option_map; cbn [fr_name ascii_text app];
    repeat (rewrite <- !app_assoc; cbn [app]); reflexivity.
Qed.

(** The exceptions whose text is part of an exception's, with their place in the groups, counted from one. The members of a
    context's group are counted anew. *)
Inductive placed : list nat -> tbe -> list nat -> tbe -> Prop :=
| pl_here p e : placed p e p e
| pl_context p only stack c ms q e : placed [] c q e -> placed p (Tbe only stack (Some c) false ms) q e
| pl_member p only stack c sup ms i m q e : nth_error ms i = Some m -> placed (p ++ [S i]) m q e -> placed p (Tbe only stack c sup ms) q e.
(** e.g. 2.1 *)
Fixpoint dotted (numeral : nat -> str) (p : list nat) : str :=
  match p with [] => [] | [x] => numeral x | x :: r => numeral x ++ ascii_text "." ++ dotted numeral r end.
Lemma group_path_dotted numeral p : group_path_text numeral p = dotted numeral p.
Proof.
  destruct p as [|x r]; [reflexivity|]. cbn [group_path_text]. revert x. induction r as [|y r IH]; intros x; cbn [map concat].
  - rewrite app_nil_r. reflexivity.
  - change (dotted numeral (x :: y :: r)) with (numeral x ++ ascii_text "." ++ dotted numeral (y :: r)). rewrite <- IH, <- !app_assoc. reflexivity.
Qed.
Definition blank_free (x : str) : Prop := exists c, In c x /\ space_char c = false.

Section Texts.
Variable numeral : nat -> str.
Lemma members_nth path : forall ms i k m, nth_error ms i = Some m ->
  exists pre post, members_text numeral path k ms = pre ++ (newline :: prefix_lines (stack_text numeral m (path ++ [k + i]) ++ related_text numeral m)
    [s_arrow ++ group_path_text numeral (path ++ [k + i]) ++ [58%N; 32%N]; s_indent]) ++ post.
Proof.
  induction ms as [|m' ms IH]; intros [|i] k m E; try discriminate; cbn [nth_error] in E.
  - injection E as ->. rewrite Nat.add_0_r. exists [], (members_text numeral path (S k) ms). reflexivity.
  - destruct (IH i (S k) m E) as (pre & post & Q). replace (k + S i) with (S k + i) by lia. cbn [members_text]. rewrite Q.
    exists (newline :: prefix_lines (stack_text numeral m' (path ++ [k]) ++ related_text numeral m') [s_arrow ++ group_path_text numeral (path ++ [k]) ++ [58%N; 32%N]; s_indent] ++ pre), post.
    cbn [app]. rewrite <- !app_assoc. reflexivity.
Qed.
(** a line of a placed exception's own text ends a line of the whole *)
Lemma placed_text p e q e' x : placed p e q e' -> blank_free x -> (exists l, In l (stack_text numeral e' q ++ related_text numeral e') /\ ends l x) ->
  exists l, In l (stack_text numeral e p ++ related_text numeral e) /\ ends l x.
Proof.
  intros P B T. induction P as [p e|p only stack c ms q e P IH|p only stack c sup ms i m q e E P IH]; auto.
  - destruct (IH T) as (l & I & Q). exists l. split; auto. apply in_or_app. right. cbn [related_text]. apply in_or_app. right. auto.
  - rewrite stack_text_eq. destruct (members_nth p ms i 1 m E) as (pre & post & ME). change (1 + i) with (S i) in ME.
    destruct (prefixed_ends x _ [s_arrow ++ group_path_text numeral (p ++ [S i]) ++ [58%N; 32%N]; s_indent] B (IH T)) as (l & I & Q).
    exists l. split; auto. rewrite ME, !in_app_iff. left. right. right. right. left. right. exact I.
Qed.
(** Each frame is shown with its function, file, line and column, on a line of its own. *)
Theorem C56_frames : forall e only stack c sup ms f, part e (Tbe only stack c sup ms) -> In f stack ->
  exists l t, In l (exception_text numeral e) /\ ends l t /\ frame_shown numeral f t.
Proof.
  intros e only stack c sup ms f P I. destruct (proj1 (C56_nothing_lost numeral _ _ _ _ _ _ P) f I) as (l & J & E).
  exists l, (frame_line numeral f). split; auto. split; auto. apply frame_line_shown.
Qed.
(** The exception's own frames, the most recent call first, follow its message. *)
Theorem C56_own_frames : forall only stack c sup ms, exists shown rest,
  exception_text numeral (Tbe only stack c sup ms) = only ++ shown ++ rest /\ Forall2 (frame_shown numeral) (rev stack) shown.
Proof.
  intros only stack c sup ms. destruct (C56_own_text numeral only stack c sup ms) as [rest E]. exists (map (frame_line numeral) (rev stack)), rest.
  split; auto. generalize (rev stack). induction l; cbn [map]; constructor; auto. apply frame_line_shown.
Qed.
(** A member of a group begins on a line marked with an arrow and its place, as in "  ↳ 2.1: ValueError: ...". *)
Theorem C56_numbered : forall e q only stack c sup ms i first only' stack' c' sup' ms',
  placed [] e q (Tbe only stack c sup ms) -> nth_error ms i = Some (Tbe (first :: only') stack' c' sup' ms') ->
  exists l, In l (exception_text numeral e) /\
    ends l (ascii_text "  " ++ [0x21B3%N] ++ ascii_text " " ++ dotted numeral (q ++ [S i]) ++ ascii_text ": " ++ first).
Proof.
  intros e q only stack c sup ms i first only' stack' c' sup' ms' P E.
  set (x := ascii_text "  " ++ _). assert (blank_free x) as B by (exists 0x21B3%N; split; [right; right; left; reflexivity|reflexivity]).
  apply (placed_text _ _ _ _ x P B). rewrite stack_text_eq. destruct (members_nth q ms i 1 _ E) as (pre & post & ME). change (1 + i) with (S i) in ME.
  rewrite ME, group_path_dotted. set (pf := s_arrow ++ _). rewrite stack_text_eq. cbn [app]. unfold prefix_lines. cbn [prefix_lines_from].
  assert (isspace (pf ++ first) = false) as NB.
  { unfold isspace, pf. cbn [app]. reflexivity. }
  rewrite NB. exists (pf ++ first). split.
  - rewrite !in_app_iff. left. right. right. right. cbn [app In]. auto.
  - exists []. unfold x, pf. cbn [app ascii_text s_arrow]. rewrite <- !app_assoc. reflexivity.
Qed.
End Texts.
Print Assumptions C56_frames.
Print Assumptions C56_own_frames.
Print Assumptions C56_numbered.
Example C56_lines_case :
  exists l, In l (exception_text (fun n => [48 + N.of_nat n]%N) some_group) /\ ends l (ascii_text "  " ++ [0x21B3%N] ++ ascii_text " 2: J").
Proof.
  exact (C56_numbered (fun n => [48 + N.of_nat n]%N) some_group [] [[71%N]] [] None false _ 1 [74%N] [] _ None false []
           (pl_here [] some_group) eq_refl).
Qed.
