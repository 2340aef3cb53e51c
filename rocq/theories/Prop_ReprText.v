(** C60: the repr of JavaScript types. *)
From Coq Require Import Ascii String List NArith ZArith Bool Arith Lia.
From Verif Require Import Base Dict SpecNumber ModelTags ModelArray ModelValue ModelObject ModelMap ModelHeap ModelEncode ModelReprText
  ArrayFacts ArrayFacts3 SpecMap SpecEq SpecRepr ReprFacts ReprFacts3 ReprFacts4 ReprFacts6 ReprFacts7 ReprFacts8 ModelEq Prop_Eq.
Import ListNotations.
Open Scope list_scope.
Open Scope nat_scope.

(** The names that the repr itself uses mean what they are: they are not keywords, and NFKC leaves them alone. *)
Definition own_names : list (list N) := map chars ["JSObject"; "JSArray"; "JSMap"; "JSSet"; "JSError"; "name"; "stack"; "cause"]%string.
(** indent is None or not negative *)
Definition sane_indent (R : rsettings) : Prop := match r_indent R with None => True | Some n => (0 <= n)%Z end.

(** The text of a value of which everything is shown, read as a Python expression, evaluates to a copy of the value. The copy is
    made of new objects; [H] itself is not changed. Indented or not. *)
Theorem C60_repr_evaluates : forall H R t isidentifier isspace whole is_enum keyword nfkc float_repr v s,
  sane_indent R -> Forall (plain_name keyword nfkc) own_names -> (forall o, ~ In (o, t) s) ->
  shown H R isidentifier whole is_enum keyword nfkc float_repr (r_maxlevel R) [] v ->
  exists ts e v' N,
    js_repr H R t isidentifier isspace whole is_enum v s = (Ok ts, s) /\
    parse keyword nfkc ts = Some e /\ eval float_repr e H = Some (PV v', H ++ N) /\
    copy (H ++ N) v v' /\ (forall b, v' = VRef b -> length H <= b).
Proof.
  intros H R t isi iss whole en kw nf fr v s IND PL FR SH.
  destruct (repr_evaluates H R t isi iss whole en kw nf fr IND PL (r_maxlevel R) [] s v) as [ts [e [E1 [E2 E3]]]]; [|exact SH|].
  { intros o K. apply kmem_in in K. exfalso. exact (FR o K). }
  destruct (E3 H) as [vs' [N [x [E4 [RS [v' [-> ->]]]]]]]; [exists []; rewrite app_nil_r; reflexivity|].
  exists ts, e, v', N. split; [exact E1|]. split; [apply parses_parse, E2|]. split; [exact E4|]. split.
  - pose proof (rs_copy _ _ _ _ RS) as F. inversion F; subst. assumption.
  - intros b ->. apply (rs_fresh _ _ _ _ RS b). left. reflexivity.
Qed.
Print Assumptions C60_repr_evaluates.

(** The copy is == to the original. The heap has no cycles and no dangling references; numbers, strings and constants are equal to themselves. *)
Theorem C60_repr_evaluates_to_equal : forall H R t isidentifier isspace whole is_enum keyword nfkc float_repr leaf_eq leaf_same (rank : nat -> nat) a s s',
  sane_indent R -> Forall (plain_name keyword nfkc) own_names -> (forall o, ~ In (o, t) s) -> (forall o, ~ In (o, t) s') ->
  arrays_fine H -> (forall o x c, nth_error H o = Some x -> holds x (VRef c) -> c < length H /\ rank c < rank o) ->
  (forall v, shown_leaf whole v -> leaf_eq v v = true /\ leaf_same v v = true) ->
  shown H R isidentifier whole is_enum keyword nfkc float_repr (r_maxlevel R) [] (VRef a) ->
  exists ts e b N,
    js_repr H R t isidentifier isspace whole is_enum (VRef a) s = (Ok ts, s) /\
    parse keyword nfkc ts = Some e /\ eval float_repr e H = Some (PV (VRef b), H ++ N) /\
    run (js_compare (H ++ N) leaf_eq leaf_same t a b) s' = (Returned true, s').
Proof.
  intros H R t isi iss whole en kw nf fr leq ls rank a s s' IND PL FR FR' AF RK LEAF SH.
  destruct (repr_evaluates H R t isi iss whole en kw nf fr IND PL (r_maxlevel R) [] s (VRef a)) as [ts [e [E1 [E2 E3]]]]; [|exact SH|].
  { intros o K. apply kmem_in in K. exfalso. exact (FR o K). }
  destruct (E3 H) as [vs' [N [x [E4 [RS [v' [-> ->]]]]]]]; [exists []; rewrite app_nil_r; reflexivity|].
  assert (copy (H ++ N) (VRef a) v') as C by (pose proof (rs_copy _ _ _ _ RS) as F; inversion F; subst; assumption).
  assert (fresh H v') as FV by (intros b ->; apply (rs_fresh _ _ _ _ RS b); left; reflexivity).
  pose proof (rs_tidy _ _ _ _ RS) as TD.
  pose proof (shown_equal H R isi whole en kw nf fr leq ls LEAF N AF TD (r_maxlevel R) [] (VRef a) v' SH C FV) as EQ.
  destruct (copy_ref _ _ _ C) as [b [x [y [-> [A [B [JA JB]]]]]]]. exists ts, e, b, N. split; [exact E1|]. split; [apply parses_parse, E2|]. split; [exact E4|].
  cbn [equal] in EQ. destruct EQ as [_ [_ EQ]]. assert (length H <= b) as LB by (apply FV; reflexivity).
  assert (a < length H) as LA.
  { destruct (r_maxlevel R); [destruct SH|]. cbn [SpecRepr.shown] in SH. destruct SH as [_ [x0 [A0 _]]]. apply nth_error_Some. congruence. }
  destruct (C46_js_acyclic (H ++ N) leq ls (fun o => o <? length H) (fun o => if o <? length H then rank o else o) t s' a b) as [r [E P]].
  - apply fine_all; assumption.
  - intros o z c E Hz _. destruct (lt_dec o (length H)) as [L|L].
    + rewrite nth_error_app1 in E by exact L. destruct (RK o z c E Hz) as [Lc Rc]. rewrite (proj2 (Nat.ltb_lt c _) Lc), (proj2 (Nat.ltb_lt o _) L). auto.
    + rewrite nth_error_app2 in E by lia. destruct (TD _ _ E) as [_ [_ T]]. specialize (T c Hz). rewrite (proj2 (Nat.ltb_ge c _)) by lia. rewrite (proj2 (Nat.ltb_ge o _)) by lia. split; [reflexivity|lia].
  - exact FR'.
  - rewrite app_length. lia.
  - apply nth_error_Some. congruence.
  - rewrite (proj2 (Nat.ltb_lt a _) LA), (proj2 (Nat.ltb_ge b _) LB). discriminate.
  - rewrite E. apply P in EQ. rewrite <- EQ. reflexivity.
Qed.
Print Assumptions C60_repr_evaluates_to_equal.

(** Whatever the heap (cycles too), the settings, and whether it raises: the set of running keys is as before afterwards. *)
Theorem C60_repr_cleans_up : forall H R t isidentifier isspace whole is_enum v s,
  snd (js_repr H R t isidentifier isspace whole is_enum v s) = s.
Proof. intros. apply repr1_keeps. Qed.
Print Assumptions C60_repr_cleans_up.
(** The text does not depend on which objects other threads are writing. *)
Theorem C60_repr_threads : forall H R t isidentifier isspace whole is_enum v s s',
  (forall o, In (o, t) s <-> In (o, t) s') ->
  fst (js_repr H R t isidentifier isspace whole is_enum v s) = fst (js_repr H R t isidentifier isspace whole is_enum v s').
Proof.
  intros H R t isi iss whole en v s s' E. apply repr1_alike. intros o. specialize (E o). rewrite <- !kmem_in in E.
  destruct (kmem (o, t) s), (kmem (o, t) s'); auto; destruct E as [E1 E2]; [symmetry; auto|auto].
Qed.
Print Assumptions C60_repr_threads.
(** With settings that are not negative and a fillvalue that is not empty nothing is raised, whatever the heap: also for cycles. *)
Theorem C60_repr_never_raises : forall H R t isidentifier isspace whole is_enum v s,
  sane_indent R -> Forall (fun n => (0 <= n)%Z) [r_maxjsobject R; r_maxjsarray R; r_maxdict R; r_maxset R; r_maxlist R; r_maxtuple R] ->
  r_fill R <> [] -> arrays_fine H ->
  exists ts, js_repr H R t isidentifier isspace whole is_enum v s = (Ok ts, s).
Proof.
  intros H R t isi iss whole en v s IND LIM FI AF. destruct (repr1_gives H R t isi iss whole en IND LIM FI AF (r_maxlevel R) v s) as [ts [E _]].
  exists ts. pose proof (C60_repr_cleans_up H R t isi iss whole en v s) as K. unfold js_repr in *. destruct (repr1 _ _ _ _ _ _ _ _ _ _) as [r s1]. cbn [fst snd] in *. subst. reflexivity.
Qed.
Print Assumptions C60_repr_never_raises.
(** * Cases *)
Definition usual (indent : option Z) : rsettings := mkR 6 20 20 4 6 6 6 (chars "...") indent.
Definition all_short (v : val) : bool := true.
Definition no_enum (o : nat) : bool := false.
Definition is_class (n : list N) : bool := listN_eqb n (chars "class").
Definition as_is (n : list N) : list N := n.
Definition yes_id (n : list N) : bool := negb (listN_eqb n []) && negb (listN_eqb n (chars "a b")).
Definition is_blank (c : N) : bool := (c =? 32)%N.
Definition float_text (b : N) : list N := chars "1.5".
(** A map from 1 and "k" to an array with a hole, an object and a property, inside an object with elements and names; and an error with a cause. *)
Definition shown_heap : heap :=
  [ OObject (mkObj (ADense (mkDense [Some (VRef 1); None; Some (VInt (-3))] 2)) [(chars "x", VRef 3); (chars "y", VNone)]);
    OMap [(SNum 1 0, (VInt 1, VRef 2)); (SStr (chars "k"), (VStr (chars "k"), VUndef))];
    OArray (mkObj (ADense (mkDense [Some (VBool true); None] 1)) [(chars "a b", VFloat 4609434218613702656)]);
    OError (chars "TypeError") (Some (chars "oops")) None (VRef 4);
    OSet [(SNum 7 0, VInt 7)] ].
Lemma plain_own : Forall (plain_name is_class as_is) own_names.
Proof. repeat constructor. Qed.
Notation shown_in := (shown shown_heap (usual (Some 2%Z)) yes_id all_short no_enum is_class as_is float_text).
Lemma plain_names l : Forall (plain_name is_class as_is) l \/ forallb yes_id l = false -> forallb yes_id l = true -> Forall (plain_name is_class as_is) l.
Proof. intros [F|F] T; [exact F|congruence]. Qed.
Lemma shown_heap_shown : shown_in 6 [] (VRef 0).
Proof.
  assert (shown_in 4 [3; 0] (VRef 4)) as S4.
  { split; [cbn; lia|]. eexists. split; [reflexivity|]. split; [intros v [<-|[]]; reflexivity|].
    split; [|vm_compute; discriminate]. exists [SAdd (VInt 7)]. eexists. vm_compute. reflexivity. }
  assert (shown_in 5 [0] (VRef 3)) as S3.
  { split; [cbn; lia|]. eexists. split; [reflexivity|]. split; [intros v ->; exact S4|]. split; [discriminate|]. repeat split. }
  assert (shown_in 4 [1; 0] (VRef 2)) as S2.
  { split; [cbn; lia|]. eexists. split; [reflexivity|]. split.
    { intros v [I|[n I]]; cbn in I; repeat (destruct I as [I|I]; [try discriminate; injection I; intros; subst|]); try contradiction; [exact Logic.I|]. do 2 eexists. vm_compute. reflexivity. }
    split; [reflexivity|]. split; [split; [repeat constructor; cbn; lia|split; [repeat constructor|apply plain_names; right; reflexivity]]|]. split; [vm_compute; discriminate|].
    split; [intros [I|[n I]]; cbn in I; repeat (destruct I as [I|I]; [discriminate|]); contradiction|]. split; [vm_compute; discriminate|]. split; [discriminate|]. intros _. exact Logic.I. }
  assert (shown_in 5 [0] (VRef 1)) as S1.
  { split; [cbn; lia|]. eexists. split; [reflexivity|]. split.
    { intros v [k [I|I]]; cbn in I; repeat (destruct I as [I|I]; [injection I; intros; subst; first [exact S2|reflexivity|exact Logic.I]|]); contradiction. }
    split; [|vm_compute; discriminate]. exists [KSet (VInt 1) (VRef 2); KSet (VStr (chars "k")) VUndef]. eexists. vm_compute. reflexivity. }
  split; [cbn; lia|]. eexists. split; [reflexivity|]. split.
  { intros v [I|[n I]]; cbn in I; repeat (destruct I as [I|I]; [try discriminate; injection I; intros; subst; first [exact S1|exact S3|reflexivity|exact Logic.I]|]); contradiction. }
  split; [reflexivity|]. split; [split; [repeat constructor; cbn; intuition discriminate|split; [repeat constructor|apply plain_names; left; repeat constructor]]|]. split; [vm_compute; discriminate|].
  split; [intros [I|[n I]]; cbn in I; repeat (destruct I as [I|I]; [discriminate|]); contradiction|]. split; [intros d _; discriminate|]. vm_compute. discriminate.
Qed.
Definition rank_of (o : nat) : nat := 5 - o.
Example C60_case :
  sane_indent (usual (Some 2%Z)) /\ Forall (plain_name is_class as_is) own_names /\ shown_in (r_maxlevel (usual (Some 2%Z))) [] (VRef 0) /\ arrays_fine shown_heap /\
  (forall o x c, nth_error shown_heap o = Some x -> holds x (VRef c) -> c < length shown_heap /\ rank_of c < rank_of o).
Proof.
  split; [cbn; lia|]. split; [exact plain_own|]. split; [exact shown_heap_shown|]. split.
  - intros o x [E|E]; destruct o as [|[|[|[|[|o]]]]]; cbn in E; try discriminate; try (injection E as <-; reflexivity); destruct o; discriminate.
  - intros o x c E I. unfold rank_of. destruct o as [|[|[|[|[|o]]]]]; cbn in E; try (destruct o; discriminate); injection E as <-; cbn in I.
    + destruct I as [I|[n I]]; repeat (destruct I as [I|I]; [try discriminate; injection I; intros; subst; cbn; lia|]); contradiction.
    + destruct I as [k [I|I]]; repeat (destruct I as [I|I]; [try discriminate; injection I; intros; subst; try discriminate; cbn; lia|]); contradiction.
    + destruct I as [I|[n I]]; repeat (destruct I as [I|I]; [try discriminate; injection I; intros; subst; cbn; lia|]); contradiction.
    + injection I as ->. cbn. lia.
    + destruct I as [I|[]]. discriminate.
Qed.
(** What is written for it without indentation: JSObject({0: JSMap({1: JSArray([True, JSHole], **{'a b': 1.5}), 'k': JSUndefined}), 2: -3}, x=JSError('oops', name='TypeError', cause=JSSet([7])), y=None) *)
Example C60_text :
  match js_repr shown_heap (usual None) 0 yes_id is_blank all_short no_enum (VRef 0) [] with
  | (Ok ts, s) => s = [] /\ strip ts =
      let name n := TName (chars n) in
      [name "JSObject"; TSym LPar; TSym LBrace; TInt 0; TSym Colon; name "JSMap"; TSym LPar; TSym LBrace; TInt 1; TSym Colon;
       name "JSArray"; TSym LPar; TSym LBracket; name "True"; TSym Comma; name "JSHole"; TSym RBracket; TSym Comma; TSym StarStar; TSym LBrace; TStr (chars "a b"); TSym Colon;
       TFloat 4609434218613702656; TSym RBrace; TSym RPar; TSym Comma; TStr (chars "k"); TSym Colon; name "JSUndefined"; TSym RBrace; TSym RPar; TSym Comma;
       TInt 2; TSym Colon; TInt (-3); TSym RBrace; TSym Comma; name "x"; TSym Equals; name "JSError"; TSym LPar; TStr (chars "oops"); TSym Comma;
       name "name"; TSym Equals; TStr (chars "TypeError"); TSym Comma; name "cause"; TSym Equals; name "JSSet"; TSym LPar; TSym LBracket; TInt 7; TSym RBracket; TSym RPar; TSym RPar;
       TSym Comma; name "y"; TSym Equals; name "None"; TSym RPar]%string
  | _ => False
  end.
Proof. vm_compute. auto. Qed.
(** An array that is inside itself: JSArray([...]) *)
Example C60_cycle : fst (js_repr [OArray (mkObj (ADense (mkDense [Some (VRef 0)] 1)) [])] (usual None) 0 yes_id is_blank all_short no_enum (VRef 0) []) =
  Ok [TName (chars "JSArray"); TSym LPar; TSym LBracket; TFill (chars "..."); TSym RBracket; TSym RPar].
Proof. reflexivity. Qed.

(** * Values whose repr does not evaluate back, with the usual settings and short strings *)
Definition meaning (keyword : list N -> bool) (nfkc : list N -> list N) (H : heap) (is_enum : nat -> bool) (v : val) : option (option (pv * heap)) :=
  match js_repr H (usual None) 0 (fun _ => true) is_blank all_short is_enum v [] with
  | (Ok ts, _) => match parse keyword nfkc ts with Some e => Some (eval float_text e H) | None => None end
  | _ => None
  end.
Definition object_with (props : list (list N * val)) : obj := OObject (mkObj (ADense (mkDense [] 0)) props).
Lemma copy_object G a b x y : nth_error G a = Some (OObject x) -> nth_error G b = Some (OObject y) -> copy G (VRef a) (VRef b) ->
  map fst (jo_props x) = map fst (jo_props y) /\ length (aabs (jo_arr x)) = length (aabs (jo_arr y)).
Proof.
  intros A B C. remember (VRef a) as va eqn:Ea. remember (VRef b) as vb eqn:Eb. destruct C as [v NR|a0 b0 x0 y0 A0 B0 C1 C2 C3|a0 b0 x0 y0 A0 B0 C1 C2 C3|a0 b0 m m' A0 B0 C1 C2|a0 b0 m m' A0 B0 C1|a0 b0 n m s c c' A0 B0 C1];
    [exfalso; eapply NR; eassumption|..]; injection Ea as ->; injection Eb as ->; try congruence.
  rewrite A in A0. injection A0 as <-. rewrite B in B0. injection B0 as <-. split; [exact C2|]. apply Forall2_len in C1. unfold elems in C1. rewrite !map_length in C1. symmetry. exact C1.
Qed.
(** A property whose name is a keyword, like class: JSObject(class=1) is a syntax error. *)
Theorem C60_keyword_name_refuted : exists H v, meaning is_class as_is H no_enum v = None.
Proof. exists [object_with [(chars "class", VInt 1)]], (VRef 0). vm_compute. reflexivity. Qed.
Print Assumptions C60_keyword_name_refuted.
(** A property whose name NFKC changes, here U+FB01 to "fi", comes back under the other name. *)
Definition ligature (n : list N) : list N := flat_map (fun c => if (c =? 64257)%N then chars "fi" else [c]) n.
Theorem C60_nfkc_name_refuted : exists H v x G, meaning is_class ligature H no_enum v = Some (Some (PV x, G)) /\ ~ copy G v x.
Proof.
  exists [object_with [([64257]%N, VInt 1)]], (VRef 0). do 2 eexists. split; [vm_compute; reflexivity|]. intros C.
  eapply copy_object in C as [E _]; [|reflexivity|reflexivity]. discriminate.
Qed.
Print Assumptions C60_nfkc_name_refuted.
(** nan and inf are not names in scope. *)
Theorem C60_nan_refuted : exists H v, meaning is_class as_is H no_enum v = Some None.
Proof. exists [OSet [(SNan, VFloat 9221120237041090560)]], (VRef 0). vm_compute. reflexivity. Qed.
Print Assumptions C60_nan_refuted.
(** The holes after the last element of a JSObject's elements, or of a sparse JSArray, are lost: the length differs. *)
Theorem C60_trailing_holes_refuted : exists H v x G, meaning is_class as_is H no_enum v = Some (Some (PV x, G)) /\ ~ copy G v x.
Proof.
  exists [OObject (mkObj (ADense (mkDense [Some (VInt 5); None] 1)) [])], (VRef 0). do 2 eexists. split; [vm_compute; reflexivity|].
  intros C. eapply copy_object in C as [_ E]; [|reflexivity|reflexivity]. discriminate.
Qed.
Print Assumptions C60_trailing_holes_refuted.
(** An error whose name is a member of JSErrorName: <JSErrorName.TypeError: 'TypeError'> is a syntax error. *)
Theorem C60_error_name_refuted : exists H v, meaning is_class as_is H (fun _ => true) v = None.
Proof. exists [OError (chars "TypeError") (Some (chars "oops")) None VNone], (VRef 0). vm_compute. reflexivity. Qed.
Print Assumptions C60_error_name_refuted.
(** Without the hypotheses of C60_repr_never_raises: IndexError for an empty fillvalue, ValueError for a negative limit. *)
Theorem C60_settings_raise_refuted : exists H v,
  fst (js_repr H (mkR 6 1 20 4 6 6 6 [] None) 0 (fun _ => true) is_blank all_short no_enum v []) = Err EIndex /\
  fst (js_repr H (mkR 6 (-1) 20 4 6 6 6 (chars "...") None) 0 (fun _ => true) is_blank all_short no_enum v []) = Err EValue.
Proof. exists [OObject (mkObj (ADense (mkDense [Some (VInt 5)] 1)) [(chars "x", VInt 1)])], (VRef 0). vm_compute. auto. Qed.
Print Assumptions C60_settings_raise_refuted.
