(** Models of:
    - the arguments of loads, /repo/src/v8serialize/decode.py:1668-1701
    - the exception texts of jstypes/_v8traceback.py
    Simplifications: the optional arguments are values of any type [A] that are given or None, except nodejs, which is a
    bool or None. A TracebackException is the lines of format_exception_only, its frames, its context and its group's members. *)
From Coq Require Import List Bool Arith NArith.
From Verif Require Import Base.
Import ListNotations.
Open Scope nat_scope.

(** * loads *)
Section Loads.
Variable A : Type.
Record options : Type := mkOptions {
  o_decode_steps : option A; o_nodejs : option bool;
  o_jsmap_type : option A; o_jsset_type : option A; o_js_object_type : option A; o_js_array_type : option A; o_js_constants : option A;
  o_host_object_deserializer : option A; o_js_error_builder : option A; o_default_timezone : option A }.
(** Who reads host objects *)
Inductive host : Type := NodeViews | Given (a : A) | Nobody.
(** What the data is decoded with: the steps given, or a TagReader with the options *)
Inductive reader : Type :=
| Steps (s : A)
| TagReader (jsmap jsset js_object js_array js_constants : option A) (h : host) (error_builder timezone : option A).
Definition is_none {B} (x : option B) : bool := match x with None => true | Some _ => false end.
(** [None]: TypeError *)
Definition loads_reader (o : options) : option reader :=
  match o_decode_steps o with
  | Some s =>
      if negb (is_none (o_nodejs o) && is_none (o_jsmap_type o) && is_none (o_jsset_type o) && is_none (o_js_object_type o) &&
               is_none (o_js_array_type o) && is_none (o_js_constants o) && is_none (o_host_object_deserializer o) &&
               is_none (o_js_error_builder o) && is_none (o_default_timezone o))
      then None else Some (Steps s)
  | None =>
      let nodejs := match o_nodejs o with Some b => b | None => false end in
      if nodejs && negb (is_none (o_host_object_deserializer o)) then None
      else
        let h := if is_none (o_host_object_deserializer o) && (nodejs || is_none (o_nodejs o)) then NodeViews
                 else match o_host_object_deserializer o with Some a => Given a | None => Nobody end in
        Some (TagReader (o_jsmap_type o) (o_jsset_type o) (o_js_object_type o) (o_js_array_type o) (o_js_constants o) h
                        (o_js_error_builder o) (o_default_timezone o))
  end.
End Loads.

(** * Exception texts *)
Definition str : Type := list N.
Definition newline : str := [10%N].
(** str.isspace: at least one character, all of them whitespace *)
Definition space_char (c : N) : bool :=
  ((9 <=? c) && (c <=? 13) || (28 <=? c) && (c <=? 32) || (c =? 0x85) || (c =? 0xA0) || (c =? 0x1680) ||
   (0x2000 <=? c) && (c <=? 0x200A) || (c =? 0x2028) || (c =? 0x2029) || (c =? 0x202F) || (c =? 0x205F) || (c =? 0x3000))%N.
Definition isspace (s : str) : bool := match s with [] => false | _ => forallb space_char s end.
(** str.lstrip(" ") *)
Fixpoint lstrip (s : str) : str := match s with c :: r => if (c =? 32)%N then lstrip r else s | [] => [] end.
(** prefix_lines, _v8traceback.py:97-107: zip_longest pads the shorter list with None *)
Fixpoint prefix_lines_from (last : str) (lines prefixes : list str) : list str :=
  match lines with
  | [] => []
  | line :: lines =>
      let '(prefix, last, prefixes) := match prefixes with [] => (last, last, []) | p :: r => (p, p, r) end in
      let result := prefix ++ line in
      (if isspace result then lstrip result else result) :: prefix_lines_from last lines prefixes
  end.
Definition prefix_lines (lines prefixes : list str) : list str := prefix_lines_from [] lines prefixes.

(** A frame: function, file, line and column *)
Record frame : Type := mkFrame { fr_name : str; fr_file : option str; fr_line : option nat; fr_col : option nat }.
Section Texts.
(** str(int) *)
Variable numeral : nat -> str.
(** string constants of the source: "    at ", "(unknown location)", "<unknown>", "The above exception occurred while handling
    another exception:\n", "  ↳ ", "    " *)
Definition s_at : str := [32; 32; 32; 32; 97; 116; 32]%N.
Definition s_unknown_location : str := [40; 117; 110; 107; 110; 111; 119; 110; 32; 108; 111; 99; 97; 116; 105; 111; 110; 41]%N.
Definition s_unknown : str := [60; 117; 110; 107; 110; 111; 119; 110; 62]%N.
Definition s_above : str := [84; 104; 101; 32; 97; 98; 111; 118; 101; 32; 101; 120; 99; 101; 112; 116; 105; 111; 110; 32; 111; 99; 99; 117; 114; 114; 101; 100; 32; 119; 104; 105; 108; 101; 32; 104; 97; 110; 100; 108; 105; 110; 103; 32; 97; 110; 111; 116; 104; 101; 114; 32; 101; 120; 99; 101; 112; 116; 105; 111; 110; 58; 10]%N.
Definition s_arrow : str := [32; 32; 8627; 32]%N.
Definition s_indent : str := [32; 32; 32; 32]%N.
Definition or_unknown (x : option str) : str := match x with Some s => s | None => s_unknown end.
(** format_v8_frame_location, _v8traceback.py:114-124 *)
Definition frame_location (f : frame) : str :=
  match fr_file f, fr_line f, fr_col f with
  | None, None, None => s_unknown_location
  | file, line, col => [40%N] ++ or_unknown file ++ [58%N] ++ or_unknown (option_map numeral line) ++ [58%N] ++ or_unknown (option_map numeral col) ++ [41%N]
  end.
(** format_v8_frame, _v8traceback.py:110-111 *)
Definition frame_line (f : frame) : str := s_at ++ fr_name f ++ [32%N] ++ frame_location f ++ newline.
(** TracebackException *)
Inductive tbe : Type := Tbe (only : list str) (stack : list frame) (context : option tbe) (suppress : bool) (members : list tbe).
(** format_group_path, _v8traceback.py:93-94 *)
Definition group_path_text (p : list nat) : str :=
  match p with [] => [] | x :: r => numeral x ++ concat (map (fun y => [46%N] ++ numeral y) r) end.
(** format_v8_stack and format_exception_for_v8, _v8traceback.py:50-90; walk_related follows the contexts *)
Fixpoint stack_text (e : tbe) (path : list nat) : list str :=
  match e with
  | Tbe only stack context suppress members =>
      only ++ map frame_line (rev stack) ++
      (fix go (i : nat) (ms : list tbe) : list str :=
         match ms with
         | [] => []
         | m :: ms => let sub := path ++ [i] in
                      newline :: prefix_lines (stack_text m sub ++ related_text m) [s_arrow ++ group_path_text sub ++ [58%N; 32%N]; s_indent]
                      ++ go (S i) ms
         end) 1 members
  end
with related_text (e : tbe) : list str :=
  match e with
  | Tbe _ _ (Some c) false _ => [newline; s_above; newline] ++ stack_text c [] ++ related_text c
  | _ => []
  end.
Definition exception_text (e : tbe) : list str := stack_text e [] ++ related_text e.
End Texts.
