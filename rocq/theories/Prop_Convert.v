(** C57, C58: Python exceptions and compiled patterns. *)
From Coq Require Import Ascii String.
From Coq Require Import List NArith ZArith Bool Lia.
From Coq Require Import ZifyBool ZifyN ZifyNat.
From Verif Require Import Base ModelTags ModelPrim SpecPrim PrimFacts3 ModelArray ModelValue SpecKey ModelObject ModelMap ModelBuffer ModelHeap
  ModelDecode SpecWire SpecBuild ModelEncode SpecEncode SpecParts SpecFail KeyFacts EncodeFacts EncodeFacts2 EncodeFacts3
  SpecGraph RoundTrip RoundTrip6 ModelFlags ModelOptions ModelConvert Prop_Decode Prop_Encode Prop_RoundTrip Prop_RoundTrip4 Prop_RoundTrip5 Prop_Flags Prop_Options.
Import ListNotations.
Open Scope list_scope.
Open Scope nat_scope.

(** * C57 *)
(** [m] is [s] without its trailing whitespace. *)
Definition trimmed (s m : str) : Prop :=
  exists w, s = m ++ w /\ Forall (fun c => space_char c = true) w /\ forall x c, m = x ++ [c] -> space_char c = false.
(** The error at [v] shows the exception: named Error, with the first line of its message and its V8-style text, both without trailing
    whitespace. Its cause shows the cause of the exception, and so on; an exception without a cause has none. *)
Section Shows.
Variable numeral : nat -> str.
Variable h : heap.
Inductive shows : val -> pyexc -> Prop :=
| sh_last j only st c sup ms m s : nth_error h j = Some (OError (text "Error") (Some m) (Some s) VNone) ->
    trimmed (hd [] only) m -> trimmed (concat (exception_text numeral (Tbe only st c sup ms))) s ->
    shows (VRef j) (PyExc (Tbe only st c sup ms) None)
| sh_cause j only st c sup ms m s v e : nth_error h j = Some (OError (text "Error") (Some m) (Some s) v) ->
    trimmed (hd [] only) m -> trimmed (concat (exception_text numeral (Tbe only st c sup ms))) s -> shows v e ->
    shows (VRef j) (PyExc (Tbe only st c sup ms) (Some e)).
End Shows.
(** The texts can be encoded: no line of an exception of the chain contains a lone surrogate. *)
Inductive encodable (numeral : nat -> str) : pyexc -> Prop :=
| en_exc t c : (forall l, In l (exception_text numeral t) -> Forall scalar l) -> (forall e, c = Some e -> encodable numeral e) -> encodable numeral (PyExc t c).

Lemma rstrip_spec s : trimmed s (rstrip s).
Proof.
  induction s as [|c s IH]; cbn [rstrip].
  - exists []. split; auto. split; [constructor|]. intros [|] c E; discriminate.
  - destruct IH as (w & E & F & N). destruct (rstrip s) as [|a r] eqn:Er.
    + cbn in E. subst w. destruct (space_char c) eqn:Sc.
      * exists (c :: s). split; [reflexivity|]. split; [constructor; auto|exact N].
      * exists s. split; [reflexivity|]. split; [exact F|]. intros [|? [|]] x Q; try discriminate. injection Q as <-. exact Sc.
    + exists w. split; [rewrite E; reflexivity|]. split; auto. intros [|y x] d Q; [discriminate|]. injection Q as <- Q. eapply N; eauto.
Qed.
Lemma trimmed_det s m m' : trimmed s m -> trimmed s m' -> m = m'.
Proof.
  intros (w & E & F & N) (w' & E' & F' & N').
  assert (G : forall s m w m' w', s = m ++ w -> s = m' ++ w' -> Forall (fun c => space_char c = true) w' ->
    (forall x c, m = x ++ [c] -> space_char c = false) -> List.length m <= List.length m').
  { clear. intros s m w m' w' E E' F' N. destruct (le_lt_dec (List.length m) (List.length m')) as [L|L]; auto. exfalso.
    destruct (exists_last (l := m)) as (x & c & ->); [intros ->; cbn in L; lia|]. specialize (N x c eq_refl).
    rewrite app_length in L. cbn in L. assert (I : nth_error s (List.length x) = Some c).
    { rewrite E, <- app_assoc, nth_error_app2, Nat.sub_diag by lia. reflexivity. }
    rewrite E', nth_error_app2 in I by lia. apply nth_error_In in I. rewrite Forall_forall in F'. apply F' in I. congruence. }
  pose proof (G s m w m' w' E E' F' N). pose proof (G s m' w' m w E' E F N'). assert (L : List.length m = List.length m') by lia.
  rewrite E in E'. clear -E' L. revert m' L E'. induction m as [|a m IH]; intros [|b m'] L E; cbn in *; try lia; auto. injection E as -> E. f_equal. apply IH; auto.
Qed.
Lemma trimmed_scalar s m : trimmed s m -> Forall scalar s -> Forall scalar m.
Proof. intros (w & -> & _) F. apply Forall_app in F as [F _]. auto. Qed.

Section Chain.
Variable numeral : nat -> str.
Notation errors := (errors_of numeral).
Fixpoint links (e : pyexc) : nat := match e with PyExc _ None => 1 | PyExc _ (Some c) => S (links c) end.
(** The [k]-th exception of the chain. *)
Fixpoint link (k : nat) (e : pyexc) : option pyexc :=
  match k, e with
  | O, _ => Some e
  | S k, PyExc _ (Some c) => link k c
  | S _, PyExc _ None => None
  end.
Lemma errors_nth : forall k e at_, nth_error (errors at_ e) k =
  match link k e with
  | Some (PyExc t c) => Some (OError (ename_str nError) (message_of t) (Some (stack_of numeral t)) (match c with Some _ => VRef (S (at_ + k)) | None => VNone end))
  | None => None
  end.
Proof.
  induction k as [|k IH]; intros [t [c|]] at_; cbn [errors_of nth_error link]; auto.
  - rewrite Nat.add_0_r. auto.
  - rewrite IH. replace (S at_ + k) with (at_ + S k) by lia. auto.
  - destruct k; reflexivity.
Qed.
Lemma heap_nth e k : nth_error (exception_heap numeral e) k =
  match link k e with
  | Some (PyExc t c) => Some (OError (ename_str nError) (message_of t) (Some (stack_of numeral t)) (match c with Some _ => VRef (S k) | None => VNone end))
  | None => None
  end.
Proof. apply errors_nth. Qed.
Lemma link_next : forall k e t c, link k e = Some (PyExc t (Some c)) -> link (S k) e = Some c.
Proof.
  induction k as [|k IH]; intros [t' c'] t c E.
  - injection E as -> ->. reflexivity.
  - cbn [link] in E. destruct c' as [c'|]; [|discriminate]. exact (IH _ _ _ E).
Qed.
Lemma link_encodable : forall k e e', encodable numeral e -> link k e = Some e' -> encodable numeral e'.
Proof.
  induction k as [|k IH]; intros [t c] e' En E; cbn [link] in E.
  - injection E as <-. auto.
  - destruct c as [c|]; [|discriminate]. inversion En; subst. eauto.
Qed.

Variable e : pyexc.
Hypothesis En : encodable numeral e.
Notation H := (exception_heap numeral e).
Lemma cell k x : nth_error H k = Some x -> exists t c, link k e = Some (PyExc t c) /\
  x = OError (ename_str nError) (message_of t) (Some (stack_of numeral t)) (match c with Some _ => VRef (S k) | None => VNone end).
Proof. rewrite heap_nth. destruct (link k e) as [[t c]|]; [|discriminate]. intros [= <-]. eauto. Qed.
Lemma cell_children k x v : nth_error H k = Some x -> In v (children x) -> v = VRef (S k) /\ exists y, nth_error H (S k) = Some y.
Proof.
  intros E I. destruct (cell k x E) as (t & c & L & ->). destruct c as [c|]; [|destruct I]. cbn in I. destruct I as [<-|[]]. split; auto.
  apply link_next in L. rewrite heap_nth, L. destruct c as [t' c']. eexists. reflexivity.
Qed.
Lemma cell_occurs k v : occurs H (VRef k) v -> (exists y, nth_error H k = Some y) -> exists j, v = VRef j /\ k <= j /\ exists y, nth_error H j = Some y.
Proof.
  intros O X. induction O as [|o x v O IH Hx I]; [eauto|]. destruct (IH) as (j & Ej & L & _). injection Ej as <-.
  destruct (cell_children o x v Hx I) as [-> Y]. exists (S o). split; [reflexivity|]. split; [lia|exact Y].
Qed.
Lemma first_cell : exists y, nth_error H 0 = Some y.
Proof. rewrite heap_nth. cbn [link]. destruct e as [t c]. eexists. reflexivity. Qed.
Lemma texts k t c : link k e = Some (PyExc t c) -> Forall scalar (stack_of numeral t) /\ opt_all (Forall scalar) (message_of t).
Proof.
  intros L. pose proof (link_encodable _ _ _ En L) as Q. inversion Q as [? ? A _]; subst. split.
  - eapply trimmed_scalar; [apply rstrip_spec|]. apply Forall_concat. apply Forall_forall. auto.
  - destruct t as [only st cx sup ms]. cbn [message_of]. destruct only as [|l only]; [exact Logic.I|]. cbn [opt_all].
    eapply trimmed_scalar; [apply rstrip_spec|]. apply A. destruct (C56_own_text numeral (l :: only) st cx sup ms) as [rest ->]. left. auto.
Qed.
Lemma scalar_code s : Forall scalar s -> Forall code_point s.
Proof. apply Forall_impl. unfold scalar, code_point. intros; lia. Qed.
Lemma scalar_surrogates s : Forall scalar s -> ~ surrogates s.
Proof. intros F S0. apply Exists_exists in S0 as (c & I & R). rewrite Forall_forall in F. specialize (F c I). unfold scalar in F. lia. Qed.
Lemma exception_wf cfg : wf_graph H cfg (VRef 0).
Proof.
  intros v O. destruct (cell_occurs _ _ O first_cell) as (j & -> & _ & y & Hy). exists y. split; auto.
  destruct (cell j y Hy) as (t & c & L & ->). destruct (texts _ _ _ L) as [A B]. cbn [wf_obj opt_all]. split; [|apply scalar_code; auto].
  destruct (message_of t); cbn in *; [apply scalar_code; auto|exact Logic.I].
Qed.
Lemma exception_writable cfg : writable H cfg (VRef 0).
Proof.
  split.
  - intros u x O F. destruct (cell_occurs _ _ O first_cell) as (j & -> & _ & y & Hy). destruct (cell j y Hy) as (t & c & L & ->).
    destruct (texts _ _ _ L) as [A B]. inversion F; subst; try congruence.
    + assert (Em : message_of t = Some m) by congruence. rewrite Em in B. eapply scalar_surrogates; eauto.
    + assert (Es : stack_of numeral t = s) by congruence. subst s. eapply scalar_surrogates; eauto.
  - right. intros o O (n & m & s & c & Hx & Nn & Oc). destruct (cell_children o _ c Hx) as [-> Y]; [destruct c; try congruence; left; auto|].
    destruct (cell_occurs _ _ Oc Y) as (j & Ej & L & _). injection Ej as <-. lia.
Qed.
Lemma exception_unshared : unshared H (VRef 0).
Proof.
  assert (PC : forall k x v, nth_error H k = Some x -> In v (parts x) -> v = VRef (S k)).
  { intros k x v E I. apply children_parts in I. apply (cell_children k x v E I). }
  split; [|split].
  - intros o x p _ Hx I. apply (PC _ _ _ Hx) in I. congruence.
  - intros o x o' x' p _ Hx _ Hx' I I'. apply (PC _ _ _ Hx) in I. apply (PC _ _ _ Hx') in I'. congruence.
  - intros o x _ Hx. destruct (cell o x Hx) as (t & c & _ & ->). destruct c; cbn; repeat constructor. auto.
Qed.
Lemma exception_able cfg dcfg : able H cfg dcfg false eq (VRef 0).
Proof. intros o x _ Hx. destruct (cell o x Hx) as (t & c & _ & ->). exact Logic.I. Qed.
Lemma exception_no_equals : no_equals H (VRef 0).
Proof.
  intros a b Oa _ N. destruct (cell_occurs _ _ Oa first_cell) as (j & -> & _ & y & Hy). destruct (cell j y Hy) as (t & c & _ & ->).
  elim N. unfold hash_key. cbn [hash]. rewrite Hy. reflexivity.
Qed.
Lemma carries_shows cfg dcfg h root v' R : carries H h cfg dcfg false eq root v' R ->
  forall e' k u, link k e = Some e' -> R k u -> shows numeral h u e'.
Proof.
  intros [_ C]. fix IH 1. intros [t c] k u L Ru. destruct (C _ _ Ru) as (x & Hx & OI). rewrite heap_nth, L in Hx. injection Hx as <-.
  destruct OI as (j & y & -> & Hj & CI). destruct y; try contradiction. destruct CI as (-> & -> & -> & v0 & <- & IC).
  destruct t as [only st cx sup ms].
  assert (M : trimmed (hd [] only) (match message_of (Tbe only st cx sup ms) with Some m => m | None => [] end)).
  { destruct only as [|l only]; [|apply rstrip_spec]. exists []. split; auto. split; auto. intros [|] d E; discriminate. }
  destruct c as [c|].
  - eapply sh_cause; [exact Hj|exact M|apply rstrip_spec|]. apply (IH c (S k)); auto. eapply link_next; eauto.
  - inversion IC; subst. eapply sh_last; [exact Hj|exact M|apply rstrip_spec].
Qed.
End Chain.

(** dumps of an exception and loads of the result give an error that shows it, and one error for each exception of its chain of causes. *)
Theorem C57_round_trip : forall numeral e cfg dcfg, encodable numeral e -> default_constants dcfg ->
  exists bs v h, dumps (exception_heap numeral e) cfg (VRef 0) = Ok bs /\ loads dcfg bs = Ok (v, h) /\ shows numeral h v e.
Proof.
  intros numeral e cfg dcfg En DC.
  destruct (C21_unshared_round_trip_partial (exception_heap numeral e) cfg dcfg (VRef 0)) as (bs & v & h & R & E & L & C & _ & _).
  { apply exception_wf; auto. } { auto. } { apply exception_writable; auto. } { apply exception_able; auto. } { apply exception_unshared; auto. } { apply exception_no_equals; auto. }
  exists bs, v, h. split; auto. split; auto. apply (carries_shows numeral e cfg dcfg h (VRef 0) v R C e 0 v); [reflexivity|].
  destruct C as [C _]. apply image_ref in C. exact C.
Qed.
Print Assumptions C57_round_trip.
(** A trimmed text is unique. *)
Theorem C57_text_unique : forall s m m', trimmed s m -> trimmed s m' -> m = m'.
Proof. exact trimmed_det. Qed.
Definition some_exception : pyexc :=
  PyExc (Tbe [text "ValueError: too low" ++ newline] [mkFrame (text "f") (Some (text "x.py")) (Some 3) None] None true [])
        (Some (PyExc some_group None)).
Example C57_case : encodable (fun n => [N.of_nat (48 + n)]) some_exception.
Proof.
  assert (F : forall ls, forallb (forallb (fun c => (c <? 0xD800) || ((0xE000 <=? c) && (c <? 0x110000)))%N) ls = true -> forall l, In l ls -> Forall scalar l).
  { intros ls E l I. rewrite forallb_forall in E. apply E in I. apply Forall_forall. intros c Ic. rewrite forallb_forall in I. apply I in Ic. unfold scalar. lia. }
  unfold some_exception. constructor; [apply F; vm_compute; reflexivity|]. intros ? [= <-]. constructor; [apply F; vm_compute; reflexivity|]. discriminate.
Qed.

(** * C58 *)
(** The text of a pattern's source: a str is its own, bytes are UTF-8. *)
Definition source_text (p : pattern) (s : list N) : Prop := match p_source p with inl t => s = t | inr b => utf8_string s b end.
Definition pattern_flags (f : N) (p : pattern) : Prop :=
  forall k, N.testbit f k = (N.testbit (p_flags p) 1 && (k =? 1) || N.testbit (p_flags p) 3 && (k =? 2) || N.testbit (p_flags p) 4 && (k =? 5) ||
                             N.testbit (p_flags p) 5 && (k =? 8))%N%bool.
Definition or_empty (s : list N) : list N := match s with [] => text "(?:)" | _ => s end.
Lemma from_python_value p : N.testbit p 6 = false -> exists f, from_python_flags p = Some f /\
  forall k, N.testbit f k = (N.testbit p 1 && (k =? 1) || N.testbit p 3 && (k =? 2) || N.testbit p 4 && (k =? 5) || N.testbit p 5 && (k =? 8))%N%bool.
Proof.
  intros T.
  assert (P2 : forall (x : bool) a k, N.testbit (if x then 2 ^ a else 0)%N k = (x && (k =? a)%N)%bool) by (intros [|] a k; rewrite ?N.pow2_bits_eqb, ?N.bits_0, 1?N.eqb_sym; auto).
  exists (N.lor (if N.testbit p 1 then 2 ^ 1 else 0) (N.lor (if N.testbit p 3 then 2 ^ 2 else 0) (N.lor (if N.testbit p 4 then 2 ^ 5 else 0) (if N.testbit p 5 then 2 ^ 8 else 0))))%N.
  split; [|intros k; rewrite !N.lor_spec, !P2, !orb_assoc; auto].
  unfold from_python_flags. rewrite (set_in_bit p 6 : set_in p pVERBOSE = _), T. f_equal. unfold python_members. cbn [flat_map app].
  rewrite (set_in_bit p 8 : set_in p pASCII = _), (set_in_bit p 4 : set_in p pDOTALL = _), (set_in_bit p 1 : set_in p pIGNORECASE = _), (set_in_bit p 2 : set_in p pLOCALE = _),
    (set_in_bit p 3 : set_in p pMULTILINE = _), (set_in_bit p 5 : set_in p pUNICODE = _), (set_in_bit p 6 : set_in p pVERBOSE = _), T.
  destruct (N.testbit p 8), (N.testbit p 4), (N.testbit p 1), (N.testbit p 2), (N.testbit p 3), (N.testbit p 5); vm_compute; reflexivity.
Qed.
Theorem C58_from_python : forall p throw,
  (** bytes that are not UTF-8 *)
  ((~ exists s, source_text p s) -> from_python_pattern p throw = Raised EUnicode) /\
  (** re.VERBOSE *)
  (forall s, source_text p s -> N.testbit (p_flags p) 6 = true -> from_python_pattern p throw = if throw then JSRegExpError else NoneResult) /\
  (** otherwise the same source, and ignoreCase, multiline, dotAll and unicodeSets for re.IGNORECASE, MULTILINE, DOTALL and UNICODE *)
  (forall s, source_text p s -> N.testbit (p_flags p) 6 = false ->
     exists f, from_python_pattern p throw = Made (ORegExp (or_empty s) f) /\ pattern_flags f p).
Proof.
  intros p throw. unfold from_python_pattern.
  assert (Sx : forall s, source_text p s <-> match p_source p with inl s => Some s | inr b => utf8_decode b end = Some s).
  { intros s. unfold source_text. destruct (p_source p) as [t|b]; [split; [intros ->; reflexivity|intros [= ->]; reflexivity]|]. symmetry. apply utf8_decode_iff. }
  destruct (match p_source p with inl s => Some s | inr b => utf8_decode b end) as [t|].
  - split; [|split].
    + intros N. elim N. exists t. apply Sx. auto.
    + intros s E V. rewrite (proj2 (proj1 (C50_python_round_trip_partial (p_flags p))) V). auto.
    + intros s E V. apply Sx in E. injection E as ->. destruct (from_python_value _ V) as (f & -> & T). exists f. split; [|exact T].
      unfold regexp_new. assert (N.land f 16 = 0%N) as ->; [|destruct s; reflexivity].
      change 16%N with (2 ^ 4)%N. rewrite land_pow2, T. destruct (N.testbit (p_flags p) 1), (N.testbit (p_flags p) 3), (N.testbit (p_flags p) 4), (N.testbit (p_flags p) 5); reflexivity.
  - split; [|split]; auto; intros s E; apply Sx in E; discriminate.
Qed.
Print Assumptions C58_from_python.
(** What is written for such a pattern is read as that JSRegExp. *)
Theorem C58_round_trip : forall p cfg dcfg s x, default_constants dcfg -> source_text p s -> Forall scalar s -> from_python_pattern p true = Made x ->
  exists bs h j, dumps [x] cfg (VRef 0) = Ok bs /\ loads dcfg bs = Ok (VRef j, h) /\ nth_error h j = Some x /\
    exists f, x = ORegExp (or_empty s) f /\ pattern_flags f p.
Proof.
  intros p cfg dcfg s x DC Sx F E. destruct (C58_from_python p true) as (_ & V & G).
  destruct (N.testbit (p_flags p) 6) eqn:T6; [rewrite (V s Sx eq_refl) in E; discriminate|].
  destruct (G s Sx eq_refl) as (f & E' & T). rewrite E in E'. injection E' as ->.
  assert (Fo : Forall scalar (or_empty s)) by (destruct s; auto; repeat constructor; unfold scalar; lia).
  assert (Oc : forall v, occurs [ORegExp (or_empty s) f] (VRef 0) v -> v = VRef 0).
  { induction 1 as [|o y v O IH Hx I]; auto. injection IH as ->. injection Hx as <-. destruct I. }
  assert (Hf : forall k, (9 <= k)%N -> N.testbit f k = false).
  { intros k L. rewrite T. destruct (N.eqb_spec k 1), (N.eqb_spec k 2), (N.eqb_spec k 5), (N.eqb_spec k 8); subst; try lia; rewrite !andb_false_r; auto. }
  assert (Ff : N.land f 0x1FF = f).
  { apply N.bits_inj. intros k. change 0x1FF%N with (N.ones 9). rewrite N.land_spec. destruct (N.lt_ge_cases k 9).
    - rewrite N.ones_spec_low, andb_true_r; auto.
    - rewrite Hf by auto. auto. }
  destruct (C21_unshared_round_trip_partial [ORegExp (or_empty s) f] cfg dcfg (VRef 0)) as (bs & v & h & R & D & L & [M C] & _ & _); auto.
  - intros v O. apply Oc in O as ->. eexists. split; [reflexivity|]. cbn [wf_obj]. split; [apply scalar_code; auto|].
    eexists. split; [|reflexivity]. unfold regexp_new. assert (N.land f 16 = 0%N) as ->; [|destruct s; reflexivity].
    change 16%N with (2 ^ 4)%N. rewrite land_pow2, T. destruct (N.testbit (p_flags p) 1), (N.testbit (p_flags p) 3), (N.testbit (p_flags p) 4), (N.testbit (p_flags p) 5); reflexivity.
  - split.
    + intros u e O Fl. apply Oc in O as ->. inversion Fl; subst; try discriminate.
      injection H0 as <- <-. eapply scalar_surrogates; eauto.
    + right. intros o O (n & m & st & c & Hx & _). apply Oc in O. injection O as ->. discriminate.
  - intros o x _ Hx. destruct o as [|[|]]; [injection Hx as <-|discriminate..]. exact Logic.I.
  - split; [|split].
    + intros o x q O Hx I. apply Oc in O. injection O as ->. injection Hx as <-. destruct I.
    + intros o x o' x' q O Hx O' Hx' I. apply Oc in O. injection O as ->. injection Hx as <-. destruct I.
    + intros o x O Hx. apply Oc in O. injection O as ->. injection Hx as <-. constructor.
  - intros a b Oa Ob _ _. apply Oc in Oa, Ob. congruence.
  - apply image_ref in M. destruct (C _ _ M) as (x & Hx & OI). injection Hx as <-. destruct OI as (j & y & -> & Hj & CI). destruct y; try contradiction.
    destruct CI as [-> ->]. rewrite Ff in Hj. exists bs, h, j. split; auto. split; auto. split; auto. exists f. auto.
Qed.
Print Assumptions C58_round_trip.
(** Converting back compiles the same source with the flags IGNORECASE, MULTILINE, DOTALL and UNICODE that the pattern had. *)
Theorem C58_back : forall P (compile : str -> N -> option P) p s x throw throw', source_text p s -> from_python_pattern p throw = Made x ->
  exists f, x = ORegExp (or_empty s) f /\
    as_python_pattern P compile (or_empty s) f throw' =
      match compile (or_empty s) (N.land (p_flags p) python_common) with
      | Some q => Compiled P q
      | None => if throw' then CompileError P else NotCompiled P
      end.
Proof.
  intros P compile p s x throw throw' Sx E. destruct (C58_from_python p throw) as (_ & V & G).
  destruct (N.testbit (p_flags p) 6) eqn:T6; [rewrite (V s Sx eq_refl) in E; destruct throw; discriminate|].
  destruct (G s Sx eq_refl) as (f & E' & T). rewrite E in E'. injection E' as ->. exists f. split; auto.
  unfold as_python_pattern. destruct (from_python_value _ T6) as (f' & Ef & T'). assert (f' = f) by (apply N.bits_inj; intros k; rewrite T, T'; auto). subst f'.
  rewrite (proj2 (C50_python_round_trip_partial (p_flags p)) f Ef). auto.
Qed.
Print Assumptions C58_back.
(** as_python_pattern fails for the linear flag, which Python does not have, and when the source does not compile. *)
Theorem C58_to_python : forall P (compile : str -> N -> option P) s f throw,
  (N.testbit f 6 = true -> as_python_pattern P compile s f throw = if throw then CompileError P else NotCompiled P) /\
  (N.testbit f 6 = false -> exists g, as_python_pattern P compile s f throw =
      match compile s g with Some q => Compiled P q | None => if throw then CompileError P else NotCompiled P end /\
    forall k, N.testbit g k = (N.testbit f 1 && (k =? 1) || N.testbit f 2 && (k =? 3) || N.testbit f 5 && (k =? 4) || (N.testbit f 4 || N.testbit f 8) && (k =? 5))%N%bool).
Proof.
  intros P compile s f throw. destruct (C50_js_round_trip f) as [A B]. unfold as_python_pattern. split; intros T.
  - rewrite (proj2 A T). auto.
  - destruct (as_python_flags f) as [g|] eqn:E; [|pose proof (proj1 A eq_refl); congruence].
    exists g. split; auto. destruct (B g eq_refl) as [Q _]. exact Q.
Qed.
Print Assumptions C58_to_python.
Example C58_case :
  source_text (mkPattern (inr [0xC3; 0xA9]%N) 10) [0xE9]%N /\ Forall scalar [0xE9]%N /\
  from_python_pattern (mkPattern (inr [0xC3; 0xA9]%N) 10) true = Made (ORegExp [0xE9]%N 6) /\
  from_python_pattern (mkPattern (inl []) 32) true = Made (ORegExp (text "(?:)") 256) /\
  from_python_pattern (mkPattern (inr [0xFF]%N) 64) false = Raised EUnicode.
Proof.
  split; [apply utf8_decode_iff; reflexivity|]. split; [repeat constructor; unfold scalar; lia|]. repeat split.
Qed.
Print Assumptions C57_text_unique.
