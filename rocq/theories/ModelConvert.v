(** Models of the Python values that are converted before they are written:
    - exceptions: JSErrorData.from_exception and from_traceback_exception, /repo/src/v8serialize/jstypes/jserror.py:75-103, _get_message,
      jserror.py:125-131, and serialize_python_exception, encode.py:953-959
    - compiled patterns: JSRegExp.from_python_pattern and as_python_pattern, jstypes/jsregexp.py:60-111, and serialize_python_regexp,
      encode.py:941-945
    Simplifications: an exception is what TracebackException.from_exception makes of it, together with its chain of causes. TracebackException
    itself cuts cycles of causes, so the chain is finite. str.rstrip removes the characters of str.isspace. The errors made from an
    exception are objects of their own; the first of them is recorded under the identity of the exception. re.compile is a parameter. *)
From Coq Require Import List Bool Arith NArith.
From Verif Require Import Base ModelTags ModelPrim ModelValue ModelHeap ModelFlags ModelOptions.
Import ListNotations.
Open Scope nat_scope.

(** * Exceptions *)
Inductive pyexc : Type := PyExc (t : tbe) (cause : option pyexc).
(** str.rstrip() *)
Fixpoint rstrip (s : str) : str :=
  match s with
  | [] => []
  | c :: r => match rstrip r with [] => if space_char c then [] else [c] | r => c :: r end
  end.
Section Exceptions.
Variable numeral : nat -> str.
(** _get_message, jserror.py:125-131 *)
Definition message_of (t : tbe) : option str := match t with Tbe [] _ _ _ _ => None | Tbe (l :: _) _ _ _ _ => Some (rstrip l) end.
(** jserror.py:84 *)
Definition stack_of (t : tbe) : str := rstrip (concat (exception_text numeral t)).
(** from_traceback_exception, jserror.py:81-103. The errors are allocated from [at_] on; each refers to the next. *)
Fixpoint errors_of (at_ : nat) (e : pyexc) : list obj :=
  match e with
  | PyExc t None => [OError (ename_str nError) (message_of t) (Some (stack_of t)) VNone]
  | PyExc t (Some c) => OError (ename_str nError) (message_of t) (Some (stack_of t)) (VRef (S at_)) :: errors_of (S at_) c
  end.
(** The values dumps of the exception writes: serialize_python_exception, encode.py:953-959 *)
Definition exception_heap (e : pyexc) : heap := errors_of 0 e.
End Exceptions.

(** * Patterns *)
(** pattern.pattern, a str or bytes, and pattern.flags *)
Record pattern : Type := mkPattern { p_source : str + bytes; p_flags : N }.
(** from_python_pattern, jsregexp.py:60-84: the result, or the value None. [JSRegExpError] is JSRegExpV8SerializeError.
    *)
Inductive outcome : Type := Made (x : obj) | NoneResult | Raised (e : exn) | JSRegExpError.
Definition from_python_pattern (p : pattern) (throw : bool) : outcome :=
  match (match p_source p with inl s => Some s | inr b => utf8_decode b end) with
  | None => Raised EUnicode
  | Some source =>
      match from_python_flags (p_flags p) with
      | None => if throw then JSRegExpError else NoneResult
      | Some flags => match regexp_new source flags with Ok x => Made x | Err e => Raised e end
      end
  end.
(** as_python_pattern, jsregexp.py:92-111; [compile] is re.compile, None for re.error *)
Section Compile.
Variable P : Type.
Variable compile : str -> N -> option P.
Inductive compiled : Type := Compiled (p : P) | NotCompiled | CompileError.
Definition as_python_pattern (source : str) (flags : N) (throw : bool) : compiled :=
  match (match as_python_flags flags with Some f => compile source f | None => None end) with
  | Some p => Compiled p
  | None => if throw then CompileError else NotCompiled
  end.
End Compile.
