(** The values that cannot be written, with the exception each one raises. *)
From Coq Require Import List NArith ZArith Bool.
From Verif Require Import Base ModelTags SpecPrim ModelValue ModelBuffer ModelHeap ModelDecode ModelEncode SpecEncode.
Import ListNotations.
Open Scope N_scope.

(** UTF-8 has no encoding for surrogates. *)
Definition surrogates (s : list N) : Prop := Exists (fun c => 0xD800 <= c <= 0xDFFF) s.
(** The number of digit bytes of a BigInt has 30 bits. *)
Definition big (z : Z) : Prop := 2 ^ (8 * (2 ^ 30 - 1) - 1) <= Z.abs_N z.
(** Lengths of buffers have 32 bits. *)
Definition long (d : bytes) : Prop := 2 ^ 32 <= lenN d.

(** The constants of the format. *)
Definition constant (v : val) : Prop := match v with VHole | VUndef | VNone | VBool _ => True | _ => False end.

(** Objects to which writer and reader give the same number of ids: not regexps, errors without a cause
    and shared or transferred buffers. *)
Definition aligned_obj (x : obj) : Prop :=
  match x with
  | ORegExp _ _ | OShared _ | OTransfer _ => False
  | OError _ _ _ c => c <> VNone
  | _ => True
  end.

Section Fails.
Variable H : heap.
Variable cfg : ecfg.
Inductive fails : val -> exn -> Prop :=
| fl_str s : surrogates s -> fails (VStr s) EUnicode
| fl_int z : big z -> fails (VInt z) EValue
| fl_prim_str o s : nth_error H o = Some (OPrim kStringObject (VStr s)) -> surrogates s -> fails (VRef o) EUnicode
| fl_prim_int o z : nth_error H o = Some (OPrim kBigIntObject (VInt z)) -> big z -> fails (VRef o) EValue
| fl_regexp o s f : nth_error H o = Some (ORegExp s f) -> surrogates s -> fails (VRef o) EUnicode
| fl_message o n m s c : nth_error H o = Some (OError n (Some m) s c) -> surrogates m -> fails (VRef o) EUnicode
| fl_stack o n m s c : nth_error H o = Some (OError n m (Some s) c) -> surrogates s -> fails (VRef o) EUnicode
| fl_date o d e : nth_error H o = Some (ODate d) -> e_timestamp cfg d = inr e -> fails (VRef o) (date_err e)
| fl_buffer o b : nth_error H o = Some (OBuffer b) -> long (jb_data b) -> fails (VRef o) EValue
| fl_max o b : nth_error H o = Some (OBuffer b) -> jb_resizable b = true -> f_resizable (e_features cfg) = true ->
    (2 ^ 32 <= jb_max b)%Z -> fails (VRef o) EValue
| fl_bytes o d : nth_error H o = Some (OBytes d) -> long d -> fails (VRef o) EValue
| fl_bytearray o d : nth_error H o = Some (OByteArray d) -> long d -> fails (VRef o) EValue
| fl_unsupported o : nth_error H o = Some OOpaque -> fails (VRef o) EUnhandledValue
| fl_float16 o b w : nth_error H o = Some (OView b w) -> vw_tag w = vFloat16 -> f_float16 (e_features cfg) = false ->
    fails (VRef o) EUnhandledValue.

Definition aligned (root : val) : Prop := forall o x, occurs H root (VRef o) -> nth_error H o = Some x -> aligned_obj x.
(** Objects that have an encoding but are neither numbers nor strings. *)
Definition plain_object (x : obj) : Prop :=
  match x with
  | OPrim t _ => t <> kStringObject /\ t <> kNumberObject
  | ODate d => exists b, e_timestamp cfg d = inl b
  | OView b w => vw_tag w <> vFloat16 \/ f_float16 (e_features cfg) = true
  | OOpaque => False
  | _ => True
  end.
(** Values without an encoding: objects of unsupported types, and Float16Arrays without the feature. *)
Definition unsupported (o : nat) : Prop :=
  nth_error H o = Some OOpaque \/
  exists b w, nth_error H o = Some (OView b w) /\ vw_tag w = vFloat16 /\ f_float16 (e_features cfg) = false.

(** A view that only tuples hold, while a view of another type has the same contents. *)
Definition hidden_view (root : val) (o : nat) : Prop :=
  root <> VRef o /\
  (forall q x, occurs H root (VRef q) -> nth_error H q = Some x -> In (VRef o) (children x) -> exists l, x = OSeq true l) /\
  exists b v p b' v', nth_error H o = Some (OView b v) /\ nth_error H p = Some (OView b' v') /\ vw_tag v' <> vw_tag v /\
    snd (view_memory (backing_of H b') v') = snd (view_memory (backing_of H b) v).

(** An error that is reachable from its own cause. *)
Definition cyclic_error (o : nat) : Prop :=
  exists n m s c, nth_error H o = Some (OError n m s c) /\ c <> VNone /\ occurs H c (VRef o).
(** Two objects reachable from each other. *)
Definition same_cycle (o p : nat) : Prop := occurs H (VRef o) (VRef p) /\ occurs H (VRef p) (VRef o).
(** The objects of the cycle of [o] that are the root or are held by an object outside of it are errors. *)
Definition entered_by_errors (root : val) (o : nat) : Prop :=
  forall p, same_cycle o p ->
    root = VRef p \/ (exists q x, occurs H root (VRef q) /\ nth_error H q = Some x /\ In (VRef p) (children x) /\ ~ same_cycle o q) ->
    exists n m s c, nth_error H p = Some (OError n m s c).
End Fails.
