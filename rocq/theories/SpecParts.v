(** Parts of abstract values of the format, the constructs that need a feature, and the ids the
    writer gives out. *)
From Coq Require Import List NArith ZArith Bool.
From Verif Require Import Base ModelTags SpecPrim SpecWire.
Import ListNotations.
Open Scope N_scope.

Fixpoint vlist (vs : wvals) : list wval := match vs with VNil => [] | VCons w r => w :: vlist r end.
Fixpoint plist (ps : wpairs) : list wval := match ps with PNil => [] | PCons k v r => k :: v :: plist r end.
(** The values directly inside a value. *)
Definition direct (w : wval) : list wval :=
  match w with
  | WMap ps | WObject ps | WSparse _ ps => plist ps
  | WSet vs => vlist vs
  | WDense vs ps => vlist vs ++ plist ps
  | WErrorC _ _ _ c _ => [c]
  | _ => []
  end.
(** [part w x]: x is w or occurs inside it. *)
Inductive part (w : wval) : wval -> Prop :=
| part_refl : part w w
| part_step x y : part w x -> In y (direct x) -> part w y.

(** * Constructs that need a feature *)
Definition view_in (w : wval) : option wview := match w with WBuf _ v | WRef _ v => v | _ => None end.
(** A resizable ArrayBuffer. *)
Definition resizable_buffer (w : wval) : Prop := match w with WBuf (BufResizable _ _) _ => True | _ => False end.
(** A view with a flag only views of resizable buffers have. *)
Definition resizable_view (w : wval) : Prop := match view_in w with Some v => wv_flags v <> 0 | None => False end.
Definition float16_view (w : wval) : Prop := match view_in w with Some v => wv_tag v = vFloat16 | None => False end.
(** A regexp with the v flag, bit 8. *)
Definition unicode_sets (w : wval) : Prop := match w with WRegExp _ _ f => N.testbit f 8 = true | _ => False end.

(** * The ids the writer gives out
    Like [ids] (SpecWire), for the writer: regexps and errors without a cause get none, shared and
    transferred buffers get one. *)
Fixpoint wids (w : wval) (n : N) {struct w} : option N :=
  match w with
  | WConst _ | WInt32 _ | WUint32 _ | WDouble _ | WBigInt _ | WHost _ _ => Some n
  | WStr enc _ => Some (n + str_ids enc)
  | WBoolObj _ | WNumObj _ | WBigObj _ | WDate _ | WSharedObj _ => Some (n + 1)
  | WRegExp _ _ _ | WError _ _ _ => Some n
  | WMap ps | WObject ps | WSparse _ ps => wids_pairs ps (n + 1)
  | WSet vs => wids_vals vs (n + 1)
  | WDense vs ps => match wids_vals vs (n + 1) with Some n => wids_pairs ps n | None => None end
  | WErrorC _ _ _ c _ => wids c (n + 1)
  | WBuf _ v => Some (n + 1 + view_ids v)
  | WRef id v => if id <? n then Some (n + view_ids v) else None
  end
with wids_vals (vs : wvals) (n : N) {struct vs} : option N :=
  match vs with
  | VNil => Some n
  | VCons w r => match wids w n with Some n => wids_vals r n | None => None end
  end
with wids_pairs (ps : wpairs) (n : N) {struct ps} : option N :=
  match ps with
  | PNil => Some n
  | PCons k v r =>
      match wids k n with
      | Some n => match wids v n with Some n => wids_pairs r n | None => None end
      | None => None
      end
  end.
