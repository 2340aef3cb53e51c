(** Which data can make the decoder raise something other than a decode error. *)
From Coq Require Import List NArith ZArith.
From Verif Require Import Base ModelTags ModelValue SpecMap ModelHeap ModelDecode.
Import ListNotations.
Open Scope N_scope.

(** The byte of a tag occurs in the data. *)
Definition has (data : bytes) (t : stag) : Prop := In (tag_byte t) data.
(** What the data must contain for an exception: nothing for decode errors, which malformed data
    of any kind may raise. *)
Definition accounted (data : bytes) (e : exn) : Prop :=
  match e with
  | EDecode | EUnhandledTag | ENodeHost => True
  | EIndex => has data kError \/ has data kResizableArrayBuffer
  | EValue => has data kRegExp \/ has data kDate \/ (2040 < length data)%nat
  | EOverflow =>
      has data kDate \/
      ((has data kBeginJSMap \/ has data kBeginJSSet) /\ (has data kBigInt \/ has data kBigIntObject))
  | EOSError => has data kDate
  | EAssert => has data kTheHole
  | EItemSize | EBounds => has data kArrayBufferView
  | _ => False
  end.
(** Constants the decoder is configured with: a hole for the hole only, and no integer too large
    for a float. *)
Definition plain_constants (cfg : dcfg) : Prop :=
  forall t, (c_const cfg t = VHole -> t = kTheHole) /\ ~ huge (c_const cfg t).
