(** Which variables of a program share memory, read off the program and the outcomes of its operations. *)
From Coq Require Import List NArith ZArith Bool.
From Verif Require Import Base ModelOwner.
Import ListNotations.

(** The variable whose memory the new variable of an operation shows: memoryviews show the memory of what they are made
    of, and a JSArrayBuffer that of its data only with copy_data=False. *)
Definition made_from (o : mop) : option nat :=
  match o with
  | MView h | MSlice h _ _ | MToReadonly h | MData h => Some h
  | MBuffer a => match na_length a, na_data a, na_copy a with None, Some h, Some false => Some h | _, _, _ => None end
  | _ => None
  end.
(** For each variable, the variable whose memory it shows in the end. *)
Definition root_of (roots : list nat) (h : nat) : nat := nth h roots h.
Definition add_root (roots : list nat) (e : mop * mout) : list nat :=
  match e with
  | (o, MNew) => roots ++ [match made_from o with Some h => root_of roots h | None => length roots end]
  | _ => roots
  end.
Definition roots (tr : list (mop * mout)) : list nat := fold_left add_root tr [].
Definition same_memory (tr : list (mop * mout)) (v w : nat) : Prop := root_of (roots tr) v = root_of (roots tr) w.

(** Operations that change memory, and that release it. *)
Definition writes (o : mop) : option nat :=
  match o with MSetByte h _ _ | MExtend h _ | MTruncate h _ | MResize h _ => Some h | _ => None end.
Definition closes (o : mop) : option nat := match o with MRelease h | MClose h => Some h | _ => None end.

(** The number of variables. *)
Definition var_count (tr : list (mop * mout)) : nat := length (roots tr).
(** [v] is what the operation at some place of the program made. *)
Definition made (tr : list (mop * mout)) (v : nat) (o : mop) : Prop :=
  exists a b, tr = a ++ (o, MNew) :: b /\ v = var_count a.
(** [w] is [v] or was made from it without copying, at any number of steps. *)
Inductive derived (tr : list (mop * mout)) (v : nat) : nat -> Prop :=
| dv_self : derived tr v v
| dv_step w x o : derived tr v w -> made tr x o -> made_from o = Some w -> derived tr v x.

(** When JSArrayBuffer(...) refuses its arguments. *)
Definition wants_resizable (a : newbuf) : Prop := na_resizable a = Some true \/ na_max a <> None.
Definition wants_readonly (a : newbuf) : Prop := na_readonly a = Some true.
Definition no_copy (a : newbuf) : Prop := na_copy a = Some false.
(** the data argument counts only without a byte_length *)
Definition data_arg (a : newbuf) (h : nat) : Prop := na_length a = None /\ na_data a = Some h.
Inductive asked_length (st : mstate) (a : newbuf) : Z -> Prop :=
| al_length n : na_length a = Some n -> asked_length st a (Z.max 0 n)
| al_none : na_length a = None -> na_data a = None -> asked_length st a 0
| al_data h d : data_arg a h -> contents st h = Some d -> asked_length st a (Z.of_nat (length d)).
Inductive refused (py312 : bool) (st : mstate) (a : newbuf) : Prop :=
| rf_both : wants_resizable a -> wants_readonly a -> refused py312 st a
| rf_negative n : na_length a = Some n -> (n < 0)%Z -> ~ wants_readonly a -> refused py312 st a
| rf_released h : data_arg a h -> contents st h = None -> refused py312 st a
| rf_buffer h : data_arg a h -> type_of st h = Some TArrayBuffer -> py312 = false \/ no_copy a /\ ~ wants_readonly a -> refused py312 st a
| rf_wrap h : data_arg a h -> no_copy a -> wants_resizable a -> type_of st h <> Some TByteArray -> refused py312 st a
| rf_max m n : na_max a = Some m -> asked_length st a n -> (m < n)%Z -> refused py312 st a.
(** What the new buffer reads. *)
Inductive asked_contents (st : mstate) (a : newbuf) : bytes -> Prop :=
| ac_length n : na_length a = Some n -> asked_contents st a (zeros (Z.to_nat n))
| ac_none : na_length a = None -> na_data a = None -> asked_contents st a []
| ac_data h d : data_arg a h -> contents st h = Some d -> asked_contents st a d.

(** [v] keeps the memory it shows from changing its size: a memoryview that is not released, and a JSArrayBuffer that is not closed
    and wraps a memoryview of the caller's, or its own readonly one of a bytearray or JSArrayBuffer. *)
Definition memoryview_op (o : mop) : Prop := match o with MView _ | MSlice _ _ _ | MToReadonly _ | MData _ => True | _ => False end.
Inductive pins (tr : list (mop * mout)) (st : mstate) (v : nat) : Prop :=
| pin_view o : made tr v o -> memoryview_op o -> contents st v <> None -> pins tr st v
| pin_wrap a h : made tr v (MBuffer a) -> made_from (MBuffer a) = Some h ->
    (exists o, made tr h o /\ memoryview_op o) \/ wants_readonly a /\ type_of st h <> Some TBytes -> contents st v <> None -> pins tr st v.

(** What an operation that writes leaves of the contents [c] of its variable. *)
Definition written (o : mop) (c : bytes) : bytes :=
  match o with
  | MSetByte _ i x => firstn i c ++ x :: skipn (S i) c
  | MExtend _ d => c ++ d
  | MTruncate _ n => firstn n c
  | MResize _ n => firstn (Z.to_nat n) (c ++ zeros (Z.to_nat n - length c))
  | _ => c
  end.
(** A variable through which memory cannot be changed: bytes, toreadonly(), a readonly JSArrayBuffer, and what is made of them
    without copying. *)
Inductive frozen (tr : list (mop * mout)) : nat -> Prop :=
| fr_bytes v d : made tr v (MBytes d) -> frozen tr v
| fr_view v h : made tr v (MToReadonly h) -> frozen tr v
| fr_buffer v a : made tr v (MBuffer a) -> wants_readonly a -> frozen tr v
| fr_from v o h : made tr v o -> made_from o = Some h -> frozen tr h -> frozen tr v.

(** Operations on [h] that change the length of its memory. *)
Inductive resizes (st : mstate) (h : nat) : mop -> Prop :=
| rs_extend d : type_of st h = Some TByteArray -> d <> [] -> resizes st h (MExtend h d)
| rs_truncate n c : type_of st h = Some TByteArray -> contents st h = Some c -> (n < length c)%nat -> resizes st h (MTruncate h n)
| rs_resize n m c : is_resizable st h = true -> max_byte_length st h = Some m -> (0 <= n <= m)%Z -> contents st h = Some c -> n <> Z.of_nat (length c) ->
    resizes st h (MResize h n).
