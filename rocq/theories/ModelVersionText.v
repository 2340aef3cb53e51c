(** The text of a version: parse_lenient_version, /repo/src/v8serialize/_versions.py:7-44, and SerializationFeature.supported_by
    with a str, constants.py:619-620.

    packaging's VERSION_PATTERN and Version(str) (packaging 24.1, which poetry.lock pins) are not part of the repository; they are
    modelled from that version's source. A regular expression is the list of all its matches in the order in which Python's
    backtracking tries them; [re.match] takes the first. Since packaging 26 the pattern uses possessive quantifiers, which do not
    backtrack; [possessive] selects that pattern.

    Simplifications: re.IGNORECASE concerns ASCII letters only (packaging 24.1 also accepts the four other characters that fold to
    ASCII letters); int() of more digits than Python's limit is not modelled. *)
From Coq Require Import Ascii String List NArith Bool Arith.
From Verif Require Import Base ModelVersion ModelOptions.
Import ListNotations.
Open Scope list_scope.
Open Scope nat_scope.

(** * Backtracking *)
Definition P (A : Type) : Type := str -> list (A * str).
Definition pret {A} (x : A) : P A := fun s => [(x, s)].
Definition pbind {A B} (p : P A) (f : A -> P B) : P B := fun s => flat_map (fun q => f (fst q) (snd q)) (p s).
Notation "'let+' x ':=' p 'in' k" := (pbind p (fun x => k)) (at level 200, x pattern, p at level 100, k at level 200).
(** p|q *)
Definition alt {A} (p q : P A) : P A := fun s => p s ++ q s.
(** One character *)
Definition one_of (f : N -> bool) : P N := fun s => match s with c :: r => if f c then [(c, r)] else [] | [] => [] end.
(** p? and, with [possessive], p?+ *)
Definition opt {A} (possessive : bool) (p : P A) : P (option A) := fun s =>
  let found := map (fun q => (Some (fst q), snd q)) (p s) in
  if possessive then match found with [] => [(None, s)] | q :: _ => [q] end else found ++ [(None, s)].
(** p* and p*+: every repetition takes at least one character here. *)
Fixpoint repeat_ {A} (fuel : nat) (p : P A) : P (list A) :=
  match fuel with
  | O => pret []
  | S fuel => fun s => flat_map (fun q => map (fun l => (fst q :: fst l, snd l)) (repeat_ fuel p (snd q))) (p s) ++ [([], s)]
  end.
Definition star {A} (possessive : bool) (p : P A) : P (list A) := fun s =>
  let found := repeat_ (List.length s) p s in if possessive then firstn 1 found else found.
(** p+ *)
Definition plus {A} (p : P A) : P (list A) := let+ x := p in let+ l := star false p in pret (x :: l).

(** * VERSION_PATTERN *)
Definition letters (s : string) : str := map N_of_ascii (list_ascii_of_string s).
Definition is_digit (c : N) : bool := ((48 <=? c) && (c <=? 57))%N.
Definition is_lower (c : N) : bool := ((97 <=? c) && (c <=? 122))%N.
Definition is_upper (c : N) : bool := ((65 <=? c) && (c <=? 90))%N.
Definition lower (c : N) : N := if is_upper c then (c + 32)%N else c.
(** [-_\.] *)
Definition is_sep (c : N) : bool := ((c =? 45) || (c =? 95) || (c =? 46))%N.
Section Pattern.
Variable possessive : bool.
Variable ignorecase : bool.
Definition fold_case (c : N) : N := if ignorecase then lower c else c.
Fixpoint word (w : str) : P str :=
  match w with [] => pret [] | x :: w => let+ c := one_of (fun c => (fold_case c =? x)%N) in let+ r := word w in pret (c :: r) end.
Fixpoint words (ws : list string) : P str := match ws with [] => fun _ => [] | w :: ws => alt (word (letters w)) (words ws) end.
Definition digits : P str := plus (one_of is_digit).
Definition sep : P (option N) := opt possessive (one_of is_sep).
(** [a-z0-9]+ *)
Definition alnum (c : N) : bool := is_digit c || is_lower (fold_case c).
Definition run : P str := plus (one_of alnum).
(** [-_\.]?(word)[-_\.]?(number)?: the word and the number *)
Definition marker (post : bool) (ws : list string) : P (str * option str) :=
  let+ _ := opt (possessive && negb post) (one_of is_sep) in let+ w := words ws in
  let+ _ := opt (possessive && negb post) (one_of is_sep) in let+ n := opt false digits in pret (w, n).
Record parts : Type := mkParts {
  p_epoch : option str; p_release : list str; p_pre : option (str * option str); p_post : option (str * option str); p_dev : option (str * option str);
  p_local : option (list str) }.
Definition pre : P (str * option str) := marker false ["alpha"; "a"; "beta"; "b"; "preview"; "pre"; "c"; "rc"]%string.
(** -N, which is post_n1 without post_l, or a word *)
Definition post : P (str * option str) :=
  alt (let+ _ := one_of (N.eqb 45) in let+ n := digits in pret ([], Some n)) (marker true ["post"; "rev"; "r"]%string).
Definition dev : P (str * option str) := marker false ["dev"]%string.
Definition release_text : P (list str) :=
  let+ x := digits in let+ l := star possessive (let+ _ := one_of (N.eqb 46) in digits) in pret (x :: l).
Definition local : P (list str) :=
  let+ _ := one_of (N.eqb 43) in let+ x := run in let+ l := star possessive (let+ _ := one_of is_sep in run) in pret (x :: l).
Definition version_pattern : P parts :=
  let+ _ := opt possessive (one_of (fun c => (fold_case c =? 118)%N)) in
  let+ epoch := opt possessive (let+ n := digits in let+ _ := one_of (N.eqb 33) in pret n) in
  let+ rel := release_text in
  let+ a := opt possessive pre in let+ b := opt possessive post in let+ c := opt possessive dev in
  let+ l := opt possessive local in
  pret (mkParts epoch rel a b c l).
End Pattern.

(** * Version(str) *)
(** int() of ASCII digits *)
Definition value (d : str) : N := fold_left (fun n c => 10 * n + (c - 48))%N d 0%N.
(** _parse_letter_version, for the three uses. A pre-release's letter: 0 a, 1 b, 2 rc. *)
Definition number (n : option str) : N := match n with Some d => value d | None => 0 end.
Definition pre_letter (w : str) : N :=
  match map lower w with 97%N :: _ => 0 | 98%N :: _ => 1 | _ => 2 end%N.
(** _parse_local_version: part.isdigit() and int(part), or part.lower() *)
Definition segment (p : str) : N + str := if forallb is_digit p then inl (value p) else inr (map lower p).
Definition version_of (p : parts) : version :=
  mkVersion (match p_epoch p with Some d => value d | None => 0 end) (map value (p_release p))
    (option_map (fun q => (pre_letter (fst q), number (snd q))) (p_pre p)) (option_map (fun q => number (snd q)) (p_post p))
    (option_map (fun q => number (snd q)) (p_dev p)) (option_map (map segment) (p_local p)).
(** Version.__init__: ^\s*...\s*$, ignoring case. [None]: InvalidVersion *)
Definition spaces : P unit := fun s => map (fun q => (tt, snd q)) (star false (one_of space_char) s).
Definition at_end {A} (r : A * str) : bool := match snd r with [] | [10%N] => true | _ => false end.
Definition whole_version (possessive : bool) (s : str) : option version :=
  match filter at_end ((let+ _ := spaces in let+ p := version_pattern possessive true in let+ _ := spaces in pret p) s) with
  | (p, _) :: _ => Some (version_of p)
  | [] => None
  end.

(** * parse_lenient_version, _versions.py:12-44 *)
Inductive lenient : Type := Parsed (v : version) | InvalidVersion | AssertionFailed.
(** LENIENT_VERSION_PATTERN: ^(?P<version>...)(?:-(?P<suffix>\S+))?$. The matches: the parts, what is left after the version, the
    suffix *)
Definition lenient_pattern (possessive : bool) : P (parts * str * option str) :=
  let+ p := version_pattern possessive false in
  fun rest => (let+ x := opt false (let+ _ := one_of (N.eqb 45) in plus (one_of (fun c => negb (space_char c)))) in pret (p, rest, x)) rest.
Definition of_version (v : option version) : lenient := match v with Some v => Parsed v | None => InvalidVersion end.
Definition parse_lenient_version (possessive : bool) (s : str) : lenient :=
  match filter at_end (lenient_pattern possessive s) with
  | [] => InvalidVersion
  | ((p, rest, Some suffix), _) :: _ =>
      match p_local p with
      | Some _ => AssertionFailed
      | None => of_version (whole_version possessive (firstn (List.length s - List.length rest) s ++ 43%N :: suffix))
      end
  | ((_, _, None), _) :: _ => of_version (whole_version possessive s)
  end.
(** supported_by(v8_version=text), constants.py:601-633; None: parse_lenient_version raises *)
Definition supported_by_text (possessive : bool) (s : str) : option (result N) :=
  match parse_lenient_version possessive s with Parsed v => Some (supported_by (Released v)) | _ => None end.
