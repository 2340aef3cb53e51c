(** C82: when two errors are the same error, and the order of error data, in terms of their parts. *)
From Coq Require Import List NArith Bool.
From Verif Require Import Base ModelError.
Import ListNotations.

(** Errors are the same when name, message, stack and cause are, whichever of the two classes they have; two JSErrors must
    also have been raised at the same place (the same traceback object, or none). Other exceptions are the same only as objects. *)
Inductive same_error : pval -> pval -> Prop :=
| same_none : same_error PNone PNone
| same_str s : same_error (PStr s) (PStr s)
| same_other o tb tb' : same_error (POther o tb) (POther o tb')
| same_parts x x' tb tb' n m s c c' : (x = true -> x' = true -> tb = tb') -> same_error c c' ->
    same_error (PError x tb n m s c) (PError x' tb' n m s c').

(** The causes, from the error itself on *)
Fixpoint depth (e : pval) : nat := match e with PError _ _ _ _ _ c => S (depth c) | _ => 0 end.
(** No error of the chain has been raised. *)
Fixpoint unraised (e : pval) : Prop :=
  match e with PError x tb _ _ _ c => (x = true -> tb = None) /\ unraised c | _ => True end.
(** Error data with message and stack, and without cause *)
Definition plain_data (e : pval) : Prop := exists n m s, e = PError false None n (Some m) (Some s) PNone.
(** The last message assigned *)
Fixpoint last_message (m : option text) (ops : list error_op) : option text :=
  match ops with [] => m | SetMessage m' :: ops => last_message m' ops | _ :: ops => last_message m ops end.
Definition message_of (e : pval) : option text := match e with PError _ _ _ m _ _ => m | _ => None end.
Definition is_error (e : pval) : Prop := match e with PError _ _ _ _ _ _ => True | _ => False end.
(** Texts ordered by code points: the first difference decides, and a text is above its beginnings. *)
Definition text_before (s t : text) : Prop :=
  exists p, (exists b r, s = p /\ t = p ++ b :: r) \/ (exists a b r r', s = p ++ a :: r /\ t = p ++ b :: r' /\ (a < b)%N).
(** Error data ordered by message, then name, then stack *)
Definition data_before (e f : pval) : Prop :=
  exists n m s n' m' s', e = PError false None n (Some m) (Some s) PNone /\ f = PError false None n' (Some m') (Some s') PNone /\
    (text_before m m' \/ m = m' /\ (text_before n n' \/ n = n' /\ text_before s s')).
