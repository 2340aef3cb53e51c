(** Model of /repo/src/v8serialize/jstypes/_repr.py:451-503, js_repr_settings: the global
    active_js_repr and the context managers that change it.
    Simplifications: a JSRepr instance is its number in the list of all instances made so far, which
    gives the instance's settings; settings are compared with ==, instances with "is". A JSRepr is never
    falsy (it defines neither __bool__ nor __len__), so "not js_repr" is "js_repr is None". *)
From Coq Require Import List Bool Arith.
Import ListNotations.

(** The fields of _known_fields, _repr.py:509-525; 0..14 in that order. *)
Definition known (f : nat) : bool := f <? 15.
Definition f_indent : nat := 14.
Section Values.
(** The values of fields other than None. *)
Variable V : Type.
Definition settings : Type := nat -> option V.
(** override_state after the loop over kwargs, _repr.py:476-486: an unknown keyword raises TypeError ([None]). A None
    is ignored, except for indent. *)
Fixpoint override (kw : list (nat * option V)) (s : settings) : option settings :=
  match kw with
  | [] => Some s
  | (k, v) :: kw =>
      if negb (known k) then None
      else override kw (if match v with Some _ => true | None => k =? f_indent end then fun f => if f =? k then v else s f else s)
  end.
Record state : Type := mkState { st_all : list settings; st_active : nat; st_warnings : nat }.
Definition settings_of (st : state) (i : nat) : settings := nth i (st_all st) (fun _ => None).
(** The arguments of js_repr_settings: an instance, or keywords *)
Inductive given : Type := Instance (i : nat) | Keywords (kw : list (nat * option V)).
(** A block that is open: initial_js_repr, js_repr and force_restore, _repr.py:472-490 *)
Record block : Type := mkBlock { b_initial : nat; b_own : nat; b_force : bool }.
(** Entering, _repr.py:471-490; [None]: TypeError *)
Definition enter (g : given) (force : bool) (st : state) : option (block * state) :=
  match g with
  | Instance i => Some (mkBlock (st_active st) i force, mkState (st_all st) i (st_warnings st))
  | Keywords kw =>
      match override kw (settings_of st (st_active st)) with
      | None => None
      | Some s => let i := length (st_all st) in
                  Some (mkBlock (st_active st) i force, mkState (st_all st ++ [s]) i (st_warnings st))
      end
  end.
(** Leaving, whether by the end of the block or by an exception, _repr.py:493-503 *)
Definition leave (b : block) (st : state) : state :=
  if (st_active st =? b_own b) || b_force b then mkState (st_all st) (b_initial b) (st_warnings st)
  else mkState (st_all st) (st_active st) (S (st_warnings st)).

(** Code that uses the context manager in with statements: sequences of blocks with code inside, and exceptions raised
    anywhere; a try statement catches them. *)
Inductive code : Type :=
| Skip
| Throw
| Seq (a b : code)
| Try (a b : code)
| With (g : given) (force : bool) (body : code).
(** [true]: an exception was raised *)
Fixpoint exec (c : code) (st : state) : bool * state :=
  match c with
  | Skip => (false, st)
  | Throw => (true, st)
  | Seq a b => let '(x, st) := exec a st in if x then (true, st) else exec b st
  | Try a b => let '(x, st) := exec a st in if x then exec b st else (false, st)
  | With g force body =>
      match enter g force st with
      | None => (true, st)
      | Some (b, st) => let '(x, st) := exec body st in (x, leave b st)
      end
  end.

(** Blocks opened and closed by hand (contextmanager objects entered and exited in any order, also from several threads):
    the blocks opened so far, each with whether it is still open. *)
Inductive event : Type := Open (g : given) (force : bool) | Close (i : nat).
Definition world : Type := (list (block * bool) * state)%type.
Definition close_nth (i : nat) (l : list (block * bool)) : list (block * bool) :=
  firstn i l ++ match skipn i l with [] => [] | (b, _) :: r => (b, false) :: r end.
Definition happen (e : event) (w : world) : world :=
  match e with
  | Open g force => match enter g force (snd w) with None => w | Some (b, st) => (fst w ++ [(b, true)], st) end
  | Close i => match nth_error (fst w) i with
               | Some (b, true) => (close_nth i (fst w), leave b (snd w))
               | _ => w
               end
  end.
Definition happenings (es : list event) (w : world) : world := fold_left (fun w e => happen e w) es w.
End Values.
Arguments mkState {V}. Arguments st_all {V}. Arguments st_active {V}. Arguments st_warnings {V}. Arguments Instance {V}. Arguments Keywords {V}.
Arguments Open {V}. Arguments Close {V}. Arguments Skip {V}. Arguments Throw {V}. Arguments Seq {V}. Arguments Try {V}. Arguments With {V}.
Arguments override {V}. Arguments settings_of {V}. Arguments enter {V}. Arguments leave {V}. Arguments exec {V}. Arguments happen {V}. Arguments happenings {V}.
