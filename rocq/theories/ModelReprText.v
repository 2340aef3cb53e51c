(** The repr of the JavaScript types: RecursiveReprMixin and JSRepr, /repo/src/v8serialize/jstypes/_repr.py:24-421, over
    Python 3.12's reprlib.Repr (Lib/reprlib.py).

    The text is a list of tokens. repr() of a str, int or float is one token; a fillvalue is one token with its text.
    Before Python 3.12 there is no indentation; that is [r_indent = None].

    Simplifications:
    - Numbers, strings and constants are not added to the set of running keys. They have no parts, so they cannot be met
      while they are running.
    - Values cut because of maxstring or maxlong are one token [TCut].
    - Objects of classes for which JSRepr has no method that is modelled here are one token [TOther]; they have no parts.
      This covers dicts, sets, buffers and views (_repr.py:319-400).
    - OError is a JSError.
    - obj[key] for a key of a JSMap is the value stored with it (C39).
    - maxlevel and level are natural numbers: below 0 they act as 0. *)
From Coq Require Import Ascii String List NArith ZArith Bool Arith.
From Verif Require Import Base Dict SpecNumber ModelTags ModelArray ModelValue ModelObject ModelMap ModelHeap ModelEncode ModelEq.
Import ListNotations.
Open Scope list_scope.
Open Scope nat_scope.

Definition chars (s : string) : list N := map N_of_ascii (list_ascii_of_string s).

Inductive sym : Type := LPar | RPar | LBracket | RBracket | LBrace | RBrace | Comma | Colon | Equals | StarStar.
Inductive tok : Type :=
| TName (n : list N)          (* a name as it is: True, JSHole, JSObject or a keyword argument's name *)
| TInt (z : Z)                (* builtins.repr of a whole value *)
| TFloat (bits : N)
| TStr (s : list N)
| TSym (c : sym)
| TSpace                      (* one space *)
| TLine (spaces : Z)          (* a line break and an indentation *)
| TFill (f : list N)          (* fillvalue *)
| TCut (v : val)              (* a str or int with its middle replaced by fillvalue *)
| TEnum (n : list N)          (* builtins.repr of an Enum member, like <JSErrorName.TypeError: 'TypeError'> *)
| TOther (o : nat).           (* anything else *)

(** The settings of a JSRepr, _repr.py:58-107 *)
Record rsettings : Type := mkR {
  r_maxlevel : nat; r_maxjsobject : Z; r_maxjsarray : Z; r_maxdict : Z; r_maxset : Z; r_maxlist : Z; r_maxtuple : Z;
  r_fill : list N; r_indent : option Z }.

(** What a method does: the set of running keys, (id(x), get_ident()), is passed along, whether it raises or not. *)
Definition M (A : Type) : Type := kset -> result A * kset.
Definition ret {A} (x : A) : M A := fun s => (Ok x, s).
Definition raise {A} (e : exn) : M A := fun s => (Err e, s).
Definition from_result {A} (r : result A) : M A := fun s => (r, s).
Definition andThen {A B} (m : M A) (f : A -> M B) : M B :=
  fun s => match m s with (Ok x, s) => f x s | (Err e, s) => (Err e, s) end.
Notation "'let*' x ':=' m 'in' k" := (andThen m (fun x => k)) (at level 200, x pattern, m at level 100, k at level 200).
(** [f x for x in l] *)
Fixpoint each {A B} (f : A -> M B) (l : list A) : M (list B) :=
  match l with [] => ret [] | x :: l => let* y := f x in let* r := each f l in ret (y :: r) end.
(** islice(it, n): ValueError for a negative n *)
Definition islice {A} (l : list A) (n : Z) : M (list A) :=
  if (n <? 0)%Z then raise EValue else ret (firstn (Z.to_nat n) l).

Section Repr.
Variable H : heap.
Variable R : rsettings.
Variable t : nat.                              (* get_ident() *)
(** str.isidentifier(), str.isspace() of one character, len(repr(x)) <= maxstring or maxlong for strs and ints, and whether an error's name is a member of JSErrorName. *)
Variable isidentifier : list N -> bool.
Variable isspace : N -> bool.
Variable whole : val -> bool.
Variable is_enum : nat -> bool.

Definition fill : list tok := [TFill (r_fill R)].
Definition sepj : list tok := [TSym Comma; TSpace].
(** ", ".join(pieces) *)
Fixpoint comma_join (pieces : list (list tok)) : list tok :=
  match pieces with [] => [] | [p] => p | p :: r => p ++ sepj ++ comma_join r end.
(** Repr._join. [sep.join(("", *pieces, ""))[1:-len(indent) or None]] with sep a comma, a line break and
    maxlevel - level + 1 indents: every piece on a line of its own, and one indent less at the end. *)
Definition join (level : nat) (pieces : list (list tok)) : result (list tok) :=
  match r_indent R with
  | None => Ok (comma_join pieces)
  | Some n =>
      match pieces with
      | [] => Ok []
      | _ =>
          if (n <? 0)%Z then Err EValue
          else let d := (Z.of_nat (r_maxlevel R) - Z.of_nat level)%Z in
               Ok (TLine ((d + 1) * n) :: concat (map (fun p => p ++ [TSym Comma; TLine ((d + 1) * n)]) (removelast pieces))
                   ++ last pieces [] ++ [TSym Comma; TLine (d * n)])
      end
  end.
(** kwargs_repr[0].isspace(): IndexError if the text is empty *)
Fixpoint starts_with_space (l : list tok) : result bool :=
  match l with
  | [] => Err EIndex
  | TFill [] :: l => starts_with_space l
  | TFill (c :: _) :: _ => Ok (isspace c)
  | TSpace :: _ | TLine _ :: _ => Ok true
  | _ => Ok false
  end.
(** _contains_single_piece, _repr.py:403-407. Line breaks inside strs are escaped. *)
Definition single_piece (pieces : list (list tok)) : option (list tok) :=
  match pieces with
  | [p] => if existsb (fun k => match k with TLine _ => true | TFill f => existsb (fun c => (c =? 10) || (c =? 13))%N f | _ => false end) p
           then None else Some p
  | _ => None
  end.
Definition names (s : string) : list tok := [TName (chars s)].
Definition call (name : list tok) (args : list tok) : list tok := name ++ [TSym LPar] ++ args ++ [TSym RPar].
Definition braces (l : list tok) : list tok := [TSym LBrace] ++ l ++ [TSym RBrace].
Definition brackets (l : list tok) : list tok := [TSym LBracket] ++ l ++ [TSym RBracket].
(** repr of numbers, strings and constants: repr_int, repr_str and repr_instance of reprlib *)
Definition leaf_repr (v : val) : list tok :=
  match v with
  | VHole => names "JSHole"
  | VUndef => names "JSUndefined"
  | VNone => names "None"
  | VBool b => names (if b then "True" else "False")
  | VInt z => if whole v then [TInt z] else [TCut v]
  | VFloat bits => match ieee bits with
                   | NaN => names "nan"
                   | Infinite false => names "inf"
                   | Infinite true => names "-inf"
                   | Finite _ _ => [TFloat bits]
                   end
  | VStr s => if whole v then [TStr s] else [TCut v]
  | VRef o => [TOther o]
  end.
(** dict(obj) == obj, _repr.py:415-421: the keys are hashable and no two of them are ==. The dict's values are the map's own,
    so they are equal to themselves. NaN is equal to nothing else. *)
Definition dict_key (v : val) : option (option hkey) :=
  match v with
  | VFloat b => match ieee b with NaN => Some None | _ => match hash H (S (List.length H)) v with Some k => Some (Some k) | None => None end end
  | _ => match hash H (S (List.length H)) v with Some k => Some (Some k) | None => None end
  end.
Definition same_key (a b : option hkey) : bool := match a, b with Some a, Some b => hkey_eqb a b | _, _ => false end.
Fixpoint distinct_keys (seen : list (option hkey)) (ks : list val) : bool :=
  match ks with
  | [] => true
  | k :: ks => match dict_key k with
               | None => false
               | Some h => negb (existsb (same_key h) seen) && distinct_keys (h :: seen) ks
               end
  end.
Definition is_dict_equivalent (m : jsmap val) : bool :=
  negb (r_maxdict R <? jm_len m)%Z && distinct_keys [] (jm_iter m).

(** The methods for one object; [r] is repr1 at level - 1 and [level] the method's own level (>= 1). *)
Section Methods.
Variable r : val -> M (list tok).
Variable level : nat.
Definition joined (pieces : list (list tok)) : M (list tok) := from_result (join level pieces).
(** "k: v" and "k=v" *)
Definition entry (k : list tok) (v : val) : M (list tok) := let* x := r v in ret (k ++ [TSym Colon; TSpace] ++ x).
Definition kwarg (p : list N * val) : M (list tok) := let* x := r (snd p) in ret ([TName (fst p); TSym Equals] ++ x).
(** The pieces for the properties, _repr.py:162-168 and 183-189 *)
Definition property_pieces (piece : list N * val -> M (list tok)) (props : list (list N * val)) (maxprops : Z) : M (list (list tok)) :=
  let* shown := islice props (Z.max 0 maxprops) in
  let* ps := each piece shown in
  ret (ps ++ if (maxprops <? zlen props)%Z then [fill] else []).
(** __repr_JSObject, _repr.py:133-192 *)
Definition repr_object (name : string) (maxprops : Z) (o : jsobj val) : M (list tok) :=
  if (jo_len o =? 0)%Z then ret (call (names name) [])
  else
    let* array_pieces :=
      (if (0 <? arr_used (jo_arr o))%Z then
         let* _ := islice [tt] maxprops in
         let* items := from_result (fst (view_items (jo_arr o))) in
         let* shown := islice items maxprops in
         let* ps := each (fun p => entry [TInt (fst p)] (snd p)) shown in
         ret (ps ++ if (maxprops <? arr_used (jo_arr o))%Z then [fill] else [])
       else ret []) in
    let maxprops := if (0 <? arr_used (jo_arr o))%Z then (maxprops - arr_used (jo_arr o))%Z else maxprops in
    let props := jo_props o in
    if match props with [] => false | _ => forallb (fun p => isidentifier (fst p)) props end then
      let* kwarg_pieces := property_pieces kwarg props maxprops in
      let* kwargs_repr := joined kwarg_pieces in
      match array_pieces with
      | [] => ret (call (names name) (match single_piece kwarg_pieces with Some p => p | None => kwargs_repr end))
      | _ =>
          let* array_repr := joined array_pieces in
          let* sp := from_result (starts_with_space kwargs_repr) in
          ret (call (names name) (braces array_repr ++ [TSym Comma] ++ (if sp : bool then [] else [TSpace]) ++ kwargs_repr))
      end
    else
      let* prop_pieces :=
        (match props with [] => ret [] | _ => property_pieces (fun p => entry [TStr (fst p)] (snd p)) props maxprops end) in
      let* props_repr := joined (array_pieces ++ prop_pieces) in
      ret (call (names name) (braces props_repr)).
(** repr_JSArray, _repr.py:194-264 *)
Definition repr_array (o : jsobj val) : M (list tok) :=
  if (jo_len o =? 0)%Z then ret (call (names "JSArray") [])
  else
    match jo_arr o with
    | ASparse _ => repr_object "JSArray" (r_maxjsarray R) o
    | ADense d =>
        let maxprops := r_maxjsarray R in
        let* array_pieces :=
          (if (0 <? zlen (d_items d))%Z then
             let* shown := islice (d_items d) maxprops in
             let* ps := each (fun e => r (match e with Some v => v | None => VHole end)) shown in
             ret (ps ++ if (maxprops <? zlen (d_items d))%Z then [fill] else [])
           else ret []) in
        let maxprops := (maxprops - zlen (d_items d))%Z in
        let props := jo_props o in
        if match props with [] => false | _ => forallb (fun p => isidentifier (fst p)) props end then
          let* kwarg_pieces := property_pieces kwarg props maxprops in
          let* kwargs_repr := joined kwarg_pieces in
          match array_pieces with
          | [] => ret (call (names "JSArray") (match single_piece kwarg_pieces with Some p => p | None => kwargs_repr end))
          | _ =>
              let* array_repr := joined array_pieces in
              let* sp := from_result (starts_with_space kwargs_repr) in
              ret (call (names "JSArray") (brackets array_repr ++ [TSym Comma] ++ (if sp : bool then [] else [TSpace]) ++ kwargs_repr))
          end
        else
          let* prop_pieces :=
            (match props with [] => ret [] | _ => property_pieces (fun p => entry [TStr (fst p)] (snd p)) props maxprops end) in
          let* props_repr := joined prop_pieces in
          match array_pieces with
          | [] => ret (call (names "JSArray") (braces (match single_piece prop_pieces with Some p => p | None => props_repr end)))
          | _ =>
              let* array_repr := joined array_pieces in
              match prop_pieces with
              | [] => ret (call (names "JSArray") (brackets array_repr))
              | _ => ret (call (names "JSArray") (brackets array_repr ++ [TSym Comma; TSpace; TSym StarStar] ++ braces props_repr))
              end
          end
    end.
(** repr_JSMap, _repr.py:266-291 *)
Definition repr_map (m : jsmap val) : M (list tok) :=
  if (jm_len m =? 0)%Z then ret (call (names "JSMap") [])
  else
    let as_dict := is_dict_equivalent m in
    let* shown := islice (map snd m) (r_maxdict R) in
    let* ps := each (fun p : val * val =>
        let* k := r (fst p) in let* v := r (snd p) in
        ret (if as_dict then k ++ [TSym Colon; TSpace] ++ v else [TSym LPar] ++ k ++ sepj ++ v ++ [TSym RPar])) shown in
    let* s := joined (ps ++ if (r_maxdict R <? jm_len m)%Z then [fill] else []) in
    ret (call (names "JSMap") ((if as_dict then braces else brackets) s)).
(** Repr._repr_iterable; [trail] is the comma of a tuple with one member *)
Definition repr_iterable (l : list val) (left right : list tok) (maxiter : Z) (trail : bool) : M (list tok) :=
  let* shown := islice l maxiter in
  let* ps := each r shown in
  let* s := joined (ps ++ if (maxiter <? zlen l)%Z then [fill] else []) in
  ret (left ++ s ++ (if trail && (zlen l =? 1)%Z && match r_indent R with None => true | _ => false end then [TSym Comma] else []) ++ right).
(** repr_JSSet, _repr.py:293-296 *)
Definition repr_set (m : jsset) : M (list tok) :=
  match m with
  | [] => ret (call (names "JSSet") [])
  | _ => repr_iterable (js_iter m) (names "JSSet" ++ [TSym LPar; TSym LBracket]) [TSym RBracket; TSym RPar] (r_maxset R) false
  end.
(** repr_JSError, _repr.py:298-317. The parts are strs, so always true. A JSErrorName has no repr method of its own. *)
Definition opt_str (s : option (list N)) : val := match s with Some s => VStr s | None => VNone end.
Definition repr_name (o : nat) (name : list N) : M (list tok) :=
  if is_enum o then match level with 1 => ret fill | _ => ret [TEnum name] end else r (VStr name).
Definition repr_error (o : nat) (name : list N) (message stack : option (list N)) (cause : val) : M (list tok) :=
  let named n x := [[TName (chars n); TSym Equals] ++ x] in
  let* a := r (opt_str message) in
  let* b := (if listN_eqb name (chars "Error") then ret [] else let* x := repr_name o name in ret (named "name"%string x)) in
  let* c := (match stack with None => ret [] | Some s => let* x := r (VStr s) in ret (named "stack"%string x) end) in
  let* d := (match cause with VNone => ret [] | _ => let* x := r cause in ret (named "cause"%string x) end) in
  let* s := joined ([a] ++ b ++ c ++ d) in
  ret (call (names "JSError") s).
Definition repr_object_at (o : nat) : M (list tok) :=
  match nth_error H o with
  | Some (OObject x) => repr_object "JSObject" (r_maxjsobject R) x
  | Some (OArray x) => repr_array x
  | Some (OMap m) => repr_map m
  | Some (OSet m) => repr_set m
  | Some (OError n m s c) => repr_error o n m s c
  | Some (OSeq false l) => repr_iterable l [TSym LBracket] [TSym RBracket] (r_maxlist R) false
  | Some (OSeq true l) => repr_iterable l [TSym LPar] [TSym RPar] (r_maxtuple R) true
  | _ => ret [TOther o]
  end.
End Methods.

(** RecursiveReprMixin.repr1, _repr.py:30-42 *)
Fixpoint repr1 (level : nat) (v : val) : M (list tok) :=
  match level with
  | O => ret fill
  | S below =>
      match v with
      | VRef o => fun s =>
          if kmem (o, t) s then (Ok fill, s)
          else let '(x, s) := repr_object_at (repr1 below) (S below) o (kadd (o, t) s) in (x, kdel (o, t) s)
      | _ => ret (leaf_repr v)
      end
  end.
(** js_repr(obj), _repr.py:410-412 *)
Definition js_repr (v : val) : M (list tok) := repr1 (r_maxlevel R) v.
End Repr.
