(** C53: the arguments of loads. C54, C56: exception texts. *)
From Coq Require Import List Bool Lia Arith NArith.
From Verif Require Import Base ModelOptions.
Import ListNotations.
Open Scope nat_scope.

(** * C53 *)
Definition given {B} (x : option B) : Prop := x <> None.
(** Another option than decode_steps is given. *)
Definition other_given {A} (o : options A) : Prop :=
  given (o_nodejs A o) \/ given (o_jsmap_type A o) \/ given (o_jsset_type A o) \/ given (o_js_object_type A o) \/ given (o_js_array_type A o) \/
  given (o_js_constants A o) \/ given (o_host_object_deserializer A o) \/ given (o_js_error_builder A o) \/ given (o_default_timezone A o).
(** Exactly these combinations are rejected. *)
Theorem C53_rejected : forall A (o : options A), loads_reader A o = None <->
  (given (o_decode_steps A o) /\ other_given o) \/
  (o_decode_steps A o = None /\ o_nodejs A o = Some true /\ given (o_host_object_deserializer A o)).
Proof.
  intros A [st nj a b c d e h f g]. unfold loads_reader, other_given, given. cbn. destruct st as [s|].
  - split.
    + intros E. left. split; [discriminate|]. destruct nj, a, b, c, d, e, h, f, g; cbn in E; try discriminate E; intuition discriminate.
    + intros [[_ G]|[? _]]; [|discriminate]. destruct nj, a, b, c, d, e, h, f, g; cbn; auto; intuition congruence.
  - split.
    + intros E. right. destruct nj as [[|]|], h; cbn in E; try discriminate E; split; auto; split; auto; discriminate.
    + intros [[? _]|(_ & -> & G)]; [congruence|]. destruct h; [reflexivity|congruence].
Qed.
Print Assumptions C53_rejected.
(** Steps given are used as they are; otherwise every option reaches the reader, and host objects go to the deserializer given if
    there is one, to the Node.js handler if nodejs is not False, and to nobody if it is False. *)
Theorem C53_accepted : forall A (o : options A) r, loads_reader A o = Some r ->
  match o_decode_steps A o with
  | Some s => r = Steps A s
  | None => exists h, r = TagReader A (o_jsmap_type A o) (o_jsset_type A o) (o_js_object_type A o) (o_js_array_type A o) (o_js_constants A o) h (o_js_error_builder A o) (o_default_timezone A o) /\
      (forall a, o_host_object_deserializer A o = Some a -> h = Given A a) /\
      (o_host_object_deserializer A o = None -> o_nodejs A o <> Some false -> h = NodeViews A) /\
      (o_host_object_deserializer A o = None -> o_nodejs A o = Some false -> h = Nobody A)
  end.
Proof.
  intros A [st nj a b c d e h f g] r. unfold loads_reader. cbn. destruct st as [s|].
  - destruct (negb _); [discriminate|]. congruence.
  - destruct nj as [[|]|], h as [h|]; cbn; intros [= <-]; eexists; (split; [reflexivity|]); repeat split; intros; congruence.
Qed.
Print Assumptions C53_accepted.
Example C53_case : let none := mkOptions nat None None None None None None None None None None in
  loads_reader nat none = Some (TagReader nat None None None None None (NodeViews nat) None None) /\
  loads_reader nat (mkOptions nat (Some 1) None None None None None None None None None) = Some (Steps nat 1) /\
  loads_reader nat (mkOptions nat None (Some true) None None None None None (Some 2) None None) = None /\
  loads_reader nat (mkOptions nat None (Some false) None None None None None (Some 2) None None) = Some (TagReader nat None None None None None (Given nat 2) None None).
Proof. repeat split. Qed.

(** * C54 *)
(** A line that is nothing but whitespace loses its leading spaces; others are kept. *)
Definition all_blank (s : str) : Prop := s <> [] /\ Forall (fun c => space_char c = true) s.
Definition tidied (s s' : str) : Prop :=
  (~ all_blank s -> s' = s) /\ (all_blank s -> exists k, s = repeat 32%N k ++ s' /\ hd_error s' <> Some 32%N).
Lemma lstrip_spec s : exists k, s = repeat 32%N k ++ lstrip s /\ hd_error (lstrip s) <> Some 32%N.
Proof.
  induction s as [|c s (k & E & H)]; cbn; [exists 0; split; auto; discriminate|]. destruct (N.eqb_spec c 32) as [->|Ne].
  - exists (S k). cbn. split; congruence.
  - exists 0. cbn. split; auto. congruence.
Qed.
Lemma isspace_spec s : isspace s = true <-> all_blank s.
Proof.
  unfold isspace, all_blank. destruct s as [|c s]; [split; [discriminate|intros [[] _]; auto]|]. rewrite forallb_forall, Forall_forall. split; [split; [discriminate|auto]|tauto].
Qed.
Lemma tidy_spec s : tidied s (if isspace s then lstrip s else s).
Proof.
  split; intros B.
  - destruct (isspace s) eqn:I; auto. elim B. apply isspace_spec. auto.
  - rewrite (proj2 (isspace_spec s)) by auto. apply lstrip_spec.
Qed.
(** The prefix of line [i]: the [i]th, or the last one when there are not as many (none: the empty one) *)
Definition prefix_of (prefixes : list str) (i : nat) : str := nth i prefixes (last prefixes []).
Lemma prefix_lines_from_nth lines : forall l prefixes i line, nth_error lines i = Some line ->
  exists r, nth_error (prefix_lines_from l lines prefixes) i = Some r /\ tidied (nth i prefixes (last prefixes l) ++ line) r.
Proof.
  induction lines as [|x lines IH]; intros l prefixes [|i] line E; try discriminate; cbn in E.
  - injection E as ->. destruct prefixes as [|p r]; cbn [prefix_lines_from nth_error nth last]; eexists; (split; [reflexivity|apply tidy_spec]).
  - destruct prefixes as [|p r]; cbn [prefix_lines_from nth_error].
    + destruct (IH l [] i line E) as (y & Ey & T). exists y. split; auto. destruct i; auto.
    + destruct (IH p r i line E) as (y & Ey & T). exists y. split; auto. cbn [nth].
      assert (L : last (p :: r) l = last r p).
      { clear. revert p l. induction r as [|q r IH]; intros p l; auto. change (last (p :: q :: r) l) with (last (q :: r) l). rewrite IH. symmetry. apply (IH q p). }
      rewrite L. auto.
Qed.
Theorem C54_prefix_lines : forall lines prefixes,
  length (prefix_lines lines prefixes) = length lines /\
  forall i line, nth_error lines i = Some line ->
    exists r, nth_error (prefix_lines lines prefixes) i = Some r /\ tidied (prefix_of prefixes i ++ line) r.
Proof.
  intros lines prefixes. split.
  - unfold prefix_lines. generalize (@nil N). revert prefixes. induction lines as [|x lines IH]; intros prefixes l; cbn; auto. destruct prefixes; cbn; f_equal; apply IH.
  - intros i line E. apply prefix_lines_from_nth. auto.
Qed.
Print Assumptions C54_prefix_lines.
Example C54_case : prefix_lines [[97%N]; [32; 10]%N; [98%N]] [[45%N]; [32; 32]%N] = [[45; 97]%N; [10%N]; [32; 32; 98]%N].
Proof. reflexivity. Qed.

(** * C56 *)
Section Texts.
Variable numeral : nat -> str.
Notation prefixes sub := [s_arrow ++ group_path_text numeral sub ++ [58%N; 32%N]; s_indent].
Fixpoint members_text (path : list nat) (i : nat) (ms : list tbe) : list str :=
  match ms with
  | [] => []
  | m :: ms => newline :: prefix_lines (stack_text numeral m (path ++ [i]) ++ related_text numeral m) (prefixes (path ++ [i])) ++ members_text path (S i) ms
  end.
Lemma stack_text_eq only stack context suppress members path :
  stack_text numeral (Tbe only stack context suppress members) path = only ++ map (frame_line numeral) (rev stack) ++ members_text path 1 members.
Proof.
  cbn [stack_text]. do 2 f_equal. match goal with |- ?f 1 members = _ => cut (forall i, f i members = members_text path i members); [auto|] end.
  induction members as [|m ms IH]; intros i; auto. cbn [members_text]. rewrite <- (IH (S i)). reflexivity.
Qed.
(** The exceptions whose text is part of an exception's: its context, unless suppressed, and the members of its group *)
Inductive part : tbe -> tbe -> Prop :=
| pt_self e : part e e
| pt_context only stack c ms e : part c e -> part (Tbe only stack (Some c) false ms) e
| pt_member only stack c sup ms m e : In m ms -> part m e -> part (Tbe only stack c sup ms) e.
Definition ends (l x : str) : Prop := exists p, l = p ++ x.
Lemma ends_refl x : ends x x. Proof. exists []. auto. Qed.
Lemma prefixed_ends x lines ps : (exists c, In c x /\ space_char c = false) -> (exists l, In l lines /\ ends l x) -> exists l, In l (prefix_lines lines ps) /\ ends l x.
Proof.
  intros (c & Ic & Sc) (l & I & p & ->). apply In_nth_error in I as [i I]. destruct (proj2 (C54_prefix_lines lines ps) i _ I) as (r & Er & T & _).
  exists r. split; [eapply nth_error_In; eauto|]. rewrite T; [exists (prefix_of ps i ++ p); rewrite app_assoc; auto|].
  intros [_ F]. rewrite Forall_forall in F. assert (In c (prefix_of ps i ++ p ++ x)) by (rewrite !in_app_iff; auto). rewrite F in Sc; congruence.
Qed.
Lemma member_text x m path : forall ms i, In m ms -> (exists c, In c x /\ space_char c = false) ->
  (forall path, exists l, In l (stack_text numeral m path ++ related_text numeral m) /\ ends l x) -> exists l, In l (members_text path i ms) /\ ends l x.
Proof.
  induction ms as [|m' ms IH]; intros i I Cx T; cbn; [destruct I|]. destruct I as [->|I].
  - destruct (prefixed_ends x _ (prefixes (path ++ [i])) Cx (T (path ++ [i]))) as (l & J & E). exists l. split; auto. right. apply in_or_app. auto.
  - destruct (IH (S i) I Cx T) as (l & J & E). exists l. split; auto. right. apply in_or_app. auto.
Qed.
Lemma part_text e e' x : part e e' -> (exists c, In c x /\ space_char c = false) ->
  (forall path, exists l, In l (stack_text numeral e' path) /\ ends l x) ->
  forall path, exists l, In l (stack_text numeral e path ++ related_text numeral e) /\ ends l x.
Proof.
  intros P Cx T. induction P as [e|only stack c ms e P IH|only stack c sup ms m e I P IH]; intros path.
  - destruct (T path) as (l & I & E). exists l. split; auto. apply in_or_app. auto.
  - destruct (IH T []) as (l & I & E). exists l. split; auto. apply in_or_app. right. cbn [related_text]. apply in_or_app. right. auto.
  - rewrite stack_text_eq. destruct (member_text x m path ms 1 I Cx (IH T)) as (l & J & E). exists l. split; auto. rewrite !in_app_iff. auto.
Qed.
(** Every frame, and every message line that is not blank, of an exception, of its contexts unless suppressed, and of the members
    of its group (and of theirs) is the end of a line of the text. *)
Theorem C56_nothing_lost : forall e only stack c sup ms, part e (Tbe only stack c sup ms) ->
  (forall f, In f stack -> exists l, In l (exception_text numeral e) /\ ends l (frame_line numeral f)) /\
  (forall m, In m only -> ~ all_blank m -> m <> [] -> exists l, In l (exception_text numeral e) /\ ends l m).
Proof.
  intros e only stack c sup ms P. split.
  - intros f I. apply (part_text _ _ _ P).
    + exists 97%N. split; [cbn; auto 10|reflexivity].
    + intros path. exists (frame_line numeral f). split; [|apply ends_refl]. rewrite stack_text_eq, !in_app_iff. right. left. apply in_map. apply in_rev in I. auto.
  - intros m I B Ne. apply (part_text _ _ _ P).
    + destruct (existsb (fun c => negb (space_char c)) m) eqn:X.
      * apply existsb_exists in X as (ch & J & S). exists ch. split; auto. destruct (space_char ch); auto; discriminate.
      * elim B. split; auto. apply Forall_forall. intros ch J. destruct (space_char ch) eqn:S; auto.
        assert (existsb (fun c => negb (space_char c)) m = true) by (apply existsb_exists; exists ch; rewrite S; auto). congruence.
    + intros path. exists m. split; [|apply ends_refl]. rewrite stack_text_eq, !in_app_iff. auto.
Qed.
(** The text begins with the exception's own message and its frames, the most recent call first, one line for each. *)
Theorem C56_own_text : forall only stack c sup ms, exists rest,
  exception_text numeral (Tbe only stack c sup ms) = only ++ map (frame_line numeral) (rev stack) ++ rest.
Proof. intros. unfold exception_text. rewrite stack_text_eq. eexists. rewrite <- !app_assoc. reflexivity. Qed.
(** A context that is suppressed does not appear: the text is that of the exception without it. *)
Theorem C56_suppressed : forall only stack c ms, exception_text numeral (Tbe only stack (Some c) true ms) = exception_text numeral (Tbe only stack None false ms).
Proof. reflexivity. Qed.
(** The number of lines *)
Fixpoint lines_of (e : tbe) : nat :=
  match e with
  | Tbe only stack c sup ms => length only + length stack + list_sum (map (fun m => S (lines_of m)) ms) +
                               match c with Some c => if sup then 0 else 3 + lines_of c | None => 0 end
  end.
Lemma tbe_ind' (P : tbe -> Prop) : (forall only stack c sup ms, (forall d, c = Some d -> P d) -> Forall P ms -> P (Tbe only stack c sup ms)) -> forall e, P e.
Proof.
  intros B. fix IH 1. intros [only stack c sup ms]. apply B.
  - intros d E. destruct c as [c|]; [|discriminate]. injection E as <-. apply IH.
  - induction ms; constructor; auto.
Qed.
Theorem C56_line_count : forall e, length (exception_text numeral e) = lines_of e.
Proof.
  intros e. unfold exception_text. cut (forall path, length (stack_text numeral e path ++ related_text numeral e) = lines_of e); [auto|].
  induction e as [only stack c sup ms Hc Hm] using tbe_ind'. intros path. rewrite stack_text_eq, !app_length, map_length, rev_length.
  assert (M : forall i, length (members_text path i ms) = list_sum (map (fun m => S (lines_of m)) ms)).
  { induction Hm as [|m ms Pm _ IH]; intros i; cbn; auto. rewrite app_length, (proj1 (C54_prefix_lines _ _)), Pm, IH. reflexivity. }
  rewrite M. cbn [lines_of]. destruct c as [c|]; [|cbn; lia]. destruct sup; [cbn; lia|]. rewrite <- (Hc c eq_refl []).
  change (related_text numeral (Tbe only stack (Some c) false ms)) with ([newline; s_above; newline] ++ stack_text numeral c [] ++ related_text numeral c). rewrite (app_length [_; _; _]). cbn [length]. lia.
Qed.
End Texts.
Print Assumptions C56_nothing_lost.
Print Assumptions C56_own_text.
Print Assumptions C56_suppressed.
Print Assumptions C56_line_count.
(** A group of two, one with a context *)
Definition plain_tbe (n : N) : tbe := Tbe [[n]] [mkFrame [102%N] None (Some 1) None] None false [].
Definition some_group : tbe := Tbe [[71%N]] [] None false [Tbe [[72%N]] [] (Some (plain_tbe 73)) false []; plain_tbe 74].
Example C56_case : part some_group (plain_tbe 73) /\ lines_of some_group = 11.
Proof.
  split; [|reflexivity]. eapply pt_member; [left; reflexivity|]. apply pt_context. apply pt_self.
Qed.
