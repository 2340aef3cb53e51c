(** Models of the chains of steps and of the reader registry:
    - DefaultEncodeContext, /repo/src/v8serialize/encode.py:817-838
    - DefaultDecodeContext, decode.py:1074-1096
    - TagReaderRegistry, decode.py:869-913
    The two contexts run the same chain; [X] is the type of what is offered (a value to encode; a tag to decode) and [R] of
    what a step returns.
    Simplifications: a step's behaviour is the tree of its calls of next and of ctx.encode_object or
    ctx.decode_object; its other effects are its own. Nested calls of the context spend [fuel]; running out of it is
    Python's RecursionError, which, unlike Python's, is not caught by steps. *)
From Coq Require Import List Bool Arith NArith.
From Verif Require Import Base Dict ModelTags.
Import ListNotations.
Open Scope nat_scope.

Section Chain.
Variables X R E : Type.
Inductive exn : Type :=
| Unhandled (x : X)   (* UnhandledValueEncodeV8SerializeError with the value, UnhandledTagDecodeV8SerializeError with the tag *)
| Other (e : E)
| Recursion.
Inductive result : Type := Returns (r : R) | Raises (e : exn).
(** What a step does with what it is offered. *)
Inductive act : Type :=
| Return (r : R)
| Throw (e : exn)
| Next (x : X) (k : result -> act)     (* calls next(x); sees what it returns or raises *)
| Start (x : X) (k : result -> act).   (* calls ctx.encode_object(x) or ctx.decode_object(tag=x) *)
(** What is observed: offering to a step (with its index), a step's calls of next, the unhandled error *)
Inductive seen : Type := Offer (i : nat) (x : X) | Delegate (i : nat) (x : X) | Fail (x : X).

(** __encode_object_with_step, encode.py:817-826; __decode_tag_with_step, decode.py:1074-1083; [steps] are those from
    index [i] on. *)
Section Inner.
Variable start : X -> result * list seen.
Fixpoint follow (i : nat) (next : X -> result * list seen) (a : act) : result * list seen :=
  match a with
  | Return r => (Returns r, [])
  | Throw e => (Raises e, [])
  | Next x k => let '(r, t) := next x in
                match r with
                | Raises Recursion => (r, Delegate i x :: t)
                | _ => let '(r', t') := follow i next (k r) in (r', Delegate i x :: t ++ t')
                end
  | Start x k => let '(r, t) := start x in
                 match r with
                 | Raises Recursion => (r, t)
                 | _ => let '(r', t') := follow i next (k r) in (r', t ++ t')
                 end
  end.
Fixpoint with_step (i : nat) (steps : list (X -> act)) (x : X) : result * list seen :=
  match steps with
  | [] => (Raises (Unhandled x), [Fail x])
  | s :: rest => let '(r, t) := follow i (with_step (S i) rest) (s x) in (r, Offer i x :: t)
  end.
End Inner.
(** encode_object, encode.py:828-834; decode_object with a tag, decode.py:1085-1088 *)
Fixpoint offer (fuel : nat) (steps : list (X -> act)) (x : X) : result * list seen :=
  match fuel with
  | 0 => (Raises Recursion, [])
  | S fuel => with_step (offer fuel steps) 0 steps x
  end.
End Chain.
Arguments Unhandled {X E}. Arguments Other {X E}. Arguments Recursion {X E}. Arguments Returns {X R E}. Arguments Raises {X R E}.
Arguments Return {X R E}. Arguments Throw {X R E}. Arguments Next {X R E}. Arguments Start {X R E}.
Arguments Offer {X}. Arguments Delegate {X}. Arguments Fail {X}. Arguments follow {X R E}. Arguments with_step {X R E}. Arguments offer {X R E}.

(** * TagReaderRegistry *)
Section Registry.
Variable F : Type.
Definition registry : Type := list (stag * F).
(** register, decode.py:889-901: one tag, or every tag of a constraint (in ascending order: the tags of a constraint are
    different, so the order does not matter for what is found) *)
Definition register (tags : list stag) (f : F) (r : registry) : registry := fold_left (fun r t => dset stag_beq t f r) tags r.
(** register_all, decode.py:903-909 *)
Definition register_all (other r : registry) : registry := fold_left (fun r p => dset stag_beq (fst p) (snd p) r) other r.
(** match, decode.py:911-913 *)
Definition lookup (t : stag) (r : registry) : option F := dget stag_beq t r.
Inductive reg_op : Type := Register (tags : list stag) (f : F) | RegisterAll (ops : list reg_op).
(** The registry after some operations, those copied being made by operations themselves *)
Fixpoint reg_apply (r : registry) (o : reg_op) : registry :=
  match o with
  | Register tags f => register tags f r
  | RegisterAll ops => register_all (fold_left reg_apply ops []) r
  end.
Definition reg_run (ops : list reg_op) : registry := fold_left reg_apply ops [].
End Registry.
Arguments register {F}. Arguments register_all {F}. Arguments lookup {F}. Arguments Register {F}. Arguments RegisterAll {F}. Arguments reg_apply {F}. Arguments reg_run {F}.
