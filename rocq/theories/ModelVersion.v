(** V8 versions and the serialization features they support: constants.py:437-633, encode.py:1139-1207.

    packaging.version.Version is not part of the repository. It is modelled by its fields and the order
    its comparison key (_cmpkey) defines. The text of a version (_versions.py) is read in ModelVersionText: here versions
    are given as Version objects. *)
From Coq Require Import List NArith Bool.
From Verif Require Import Base ModelEncode.
Import ListNotations.
Open Scope N_scope.

(** The fields of packaging's Version: pre is a letter (0 a, 1 b, 2 rc) and a number, a local segment is
    a number or a string *)
Record version : Type := mkVersion {
  v_epoch : N; v_release : list N; v_pre : option (N * N); v_post : option N; v_dev : option N;
  v_local : option (list (N + list N)) }.
(** Version("a.b.c") *)
Definition release (l : list N) : version := mkVersion 0 l None None None None.

(** Python's order on tuples *)
Definition then_cmp (a b : comparison) : comparison := match a with Eq => b | _ => a end.
Definition pair_cmp {A B} (ca : A -> A -> comparison) (cb : B -> B -> comparison) (x y : A * B) : comparison :=
  then_cmp (ca (fst x) (fst y)) (cb (snd x) (snd y)).
Fixpoint list_cmp {A} (c : A -> A -> comparison) (x y : list A) : comparison :=
  match x, y with
  | [], [] => Eq
  | [], _ => Lt
  | _, [] => Gt
  | a :: x, b :: y => then_cmp (c a b) (list_cmp c x y)
  end.
(** packaging's InfinityType and NegativeInfinityType around a value *)
Inductive inf (A : Type) : Type := NegInf | Fin (a : A) | PosInf.
Arguments NegInf {A}. Arguments Fin {A} a. Arguments PosInf {A}.
Definition inf_cmp {A} (c : A -> A -> comparison) (x y : inf A) : comparison :=
  match x, y with
  | NegInf, NegInf | PosInf, PosInf => Eq
  | NegInf, _ | _, PosInf => Lt
  | _, NegInf | PosInf, _ => Gt
  | Fin a, Fin b => c a b
  end.
(** _cmpkey's release without trailing zeros *)
Fixpoint drop_zeros (l : list N) : list N :=
  match l with 0 :: l => drop_zeros l | _ => l end.
Definition strip_zeros (l : list N) : list N := rev (drop_zeros (rev l)).
Definition pre_key (v : version) : inf (N * N) :=
  match v_pre v, v_post v, v_dev v with
  | None, None, Some _ => NegInf
  | None, _, _ => PosInf
  | Some p, _, _ => Fin p
  end.
Definition post_key (v : version) : inf N := match v_post v with None => NegInf | Some n => Fin n end.
Definition dev_key (v : version) : inf N := match v_dev v with None => PosInf | Some n => Fin n end.
(** (i, "") for a number, (-Infinity, s) for a string *)
Definition segment_key (s : N + list N) : inf N * list N :=
  match s with inl i => (Fin i, []) | inr s => (NegInf, s) end.
Definition local_key (v : version) : inf (list (inf N * list N)) :=
  match v_local v with None => NegInf | Some l => Fin (map segment_key l) end.
Definition version_key (v : version) :=
  (v_epoch v, (strip_zeros (v_release v), (pre_key v, (post_key v, (dev_key v, local_key v))))).
Definition key_cmp :=
  pair_cmp N.compare (pair_cmp (list_cmp N.compare) (pair_cmp (inf_cmp (pair_cmp N.compare N.compare))
    (pair_cmp (inf_cmp N.compare) (pair_cmp (inf_cmp N.compare)
      (inf_cmp (list_cmp (pair_cmp (inf_cmp N.compare) (list_cmp N.compare)))))))).
Definition version_cmp (a b : version) : comparison := key_cmp (version_key a) (version_key b).

(** Version | UnreleasedVersion; SymbolicVersion.Unreleased is above all versions, constants.py:437-447.
    [vlt a b] is Python's [a < b], [vle a b] is [a <= b]; total_ordering derives the latter, and the
    reflected methods decide when only the right operand is symbolic. *)
Inductive any_version : Type := Released (v : version) | Unreleased.
Definition vlt (a b : any_version) : bool :=
  match a, b with
  | Unreleased, _ => false
  | Released _, Unreleased => true
  | Released a, Released b => match version_cmp a b with Lt => true | _ => false end
  end.
Definition vle (a b : any_version) : bool :=
  match a, b with
  | Unreleased, Unreleased => true
  | Unreleased, Released _ => false
  | Released _, Unreleased => true
  | Released a, Released b => match version_cmp a b with Gt => false | _ => true end
  end.

(** SerializationFeature's members with their flag and first version, constants.py:489-560 *)
Inductive feature : Type := RegExpUnicodeSets | ResizableArrayBuffers | CircularErrorCause | Float16Array.
Definition all_features : list feature := [RegExpUnicodeSets; ResizableArrayBuffers; CircularErrorCause; Float16Array].
Definition feature_flag (f : feature) : N :=
  match f with RegExpUnicodeSets => 1 | ResizableArrayBuffers => 2 | CircularErrorCause => 4 | Float16Array => 8 end.
Definition feature_version (f : feature) : any_version :=
  match f with
  | RegExpUnicodeSets => Released (release [10; 7; 123])
  | ResizableArrayBuffers => Released (release [11; 0; 193])
  | CircularErrorCause => Released (release [12; 1; 109])
  | Float16Array => Unreleased
  end.
Definition max_compatibility : N := 0.
Definition max_compatibility_version : any_version := Released (release [10; 0; 29]).
(** Iterating a flag value: its members, _pycompat/enum.py:29-50 *)
Definition members (fs : N) : list feature := filter (fun f => negb (N.land fs (feature_flag f) =? 0)) all_features.

(** SerializationFeature.supported_by, constants.py:601-633 *)
Definition supported_by (v : any_version) : result N :=
  if vlt v max_compatibility_version then Err ELookup
  else Ok (fold_left (fun fs f => if vle (feature_version f) v then N.lor fs (feature_flag f) else fs)
             all_features max_compatibility).

(** Encoder.__init__, encode.py:1166-1181: the features an encoder (or dumps) uses *)
Definition encoder_features (features : option N) (v8_version : option any_version) : result N :=
  let fs := match features with None => max_compatibility | Some fs => fs end in
  match v8_version with
  | None => Ok fs
  | Some v => do more <- supported_by v; Ok (N.lor fs more)
  end.
(** max() of a list of versions: the first of the greatest; ValueError if there is none *)
Definition max_version (l : list any_version) : result any_version :=
  match l with
  | [] => Err EValue
  | v :: l => Ok (fold_left (fun m x => if vlt m x then x else m) l v)
  end.
(** Encoder.first_v8_version, encode.py:1183-1185 *)
Definition first_v8_version (fs : N) : result any_version := max_version (map feature_version (members fs)).
(** The flags as [ModelEncode] uses them. *)
Definition features_of (fs : N) : features :=
  mkFeatures (negb (N.land fs 1 =? 0)) (negb (N.land fs 2 =? 0)) (negb (N.land fs 4 =? 0)) (negb (N.land fs 8 =? 0)).
