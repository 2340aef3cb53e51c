(** The serialization format, written as a grammar: abstract values and the byte strings that
    encode them. It mentions neither the encoder nor the decoder. *)
From Coq Require Import List NArith ZArith Bool.
From Verif Require Import Base ModelTags SpecPrim.
Import ListNotations.
Open Scope N_scope.

(** A view written after its buffer; [wv_flags] is 0 before format version 14. *)
Record wview : Type := mkWView { wv_tag : vtag; wv_off : N; wv_len : N; wv_flags : N }.
Inductive wbuf : Type :=
| BufPlain (d : bytes)
| BufResizable (d : bytes) (max : N)
| BufShared (id : N)
| BufTransfer (id : N).

Inductive wval : Type :=
| WConst (t : stag)
| WInt32 (z : Z)
| WUint32 (n : N)
| WDouble (bits : N)
| WBigInt (z : Z)
| WStr (enc : stag) (s : list N)          (* one of three encodings, or a String object *)
| WBoolObj (b : bool)
| WNumObj (bits : N)
| WBigObj (z : Z)
| WDate (bits : N)
| WRegExp (enc : stag) (s : list N) (flags : N)
| WMap (ps : wpairs)
| WSet (vs : wvals)
| WObject (ps : wpairs)
| WDense (vs : wvals) (ps : wpairs)
| WSparse (len : N) (ps : wpairs)
| WError (name : option etag) (msg stack : option (stag * list N))
(* with a cause; the stack is before the cause or after it *)
| WErrorC (name : option etag) (msg stack : option (stag * list N)) (cause : wval)
          (late : option (stag * list N))
| WBuf (b : wbuf) (v : option wview)
| WRef (id : N) (v : option wview)
| WSharedObj (id : N)
| WHost (code : N) (d : bytes)            (* Node's array buffer views *)
with wvals : Type :=
| VNil
| VCons (w : wval) (r : wvals)
with wpairs : Type :=
| PNil
| PCons (k v : wval) (r : wpairs).

Scheme wval_mind := Induction for wval Sort Prop
  with wvals_mind := Induction for wvals Sort Prop
  with wpairs_mind := Induction for wpairs Sort Prop.
Combined Scheme wval_mutind from wval_mind, wvals_mind, wpairs_mind.

Fixpoint vcount (vs : wvals) : N := match vs with VNil => 0 | VCons _ r => vcount r + 1 end.
Fixpoint pcount (ps : wpairs) : N := match ps with PNil => 0 | PCons _ _ r => pcount r + 1 end.

(** The tag a value starts with. *)
Definition wtag (w : wval) : stag :=
  match w with
  | WConst t => t
  | WInt32 _ => kInt32 | WUint32 _ => kUint32 | WDouble _ => kDouble | WBigInt _ => kBigInt
  | WStr enc _ => enc
  | WBoolObj true => kTrueObject | WBoolObj false => kFalseObject
  | WNumObj _ => kNumberObject | WBigObj _ => kBigIntObject
  | WDate _ => kDate
  | WRegExp _ _ _ => kRegExp
  | WMap _ => kBeginJSMap | WSet _ => kBeginJSSet | WObject _ => kBeginJSObject
  | WDense _ _ => kBeginDenseJSArray | WSparse _ _ => kBeginSparseJSArray
  | WError _ _ _ | WErrorC _ _ _ _ _ => kError
  | WBuf (BufPlain _) _ => kArrayBuffer
  | WBuf (BufResizable _ _) _ => kResizableArrayBuffer
  | WBuf (BufShared _) _ => kSharedArrayBuffer
  | WBuf (BufTransfer _) _ => kArrayBufferTransfer
  | WRef _ _ => kObjectReference
  | WSharedObj _ => kSharedObject
  | WHost _ _ => kHostObject
  end.

(** Object keys are numbers and strings. *)
Definition is_key (w : wval) : Prop :=
  match w with
  | WInt32 _ | WUint32 _ | WDouble _ | WNumObj _ | WStr _ _ => True
  | _ => False
  end.
Fixpoint keys_ok (ps : wpairs) : Prop :=
  match ps with PNil => True | PCons k _ r => is_key k /\ keys_ok r end.

(** A varint of a 32-bit number. *)
Definition varint32 (n : N) (bs : bytes) : Prop := is_varint bs n /\ (length bs <= 5)%nat /\ n < 2 ^ 32.
(** A tag, with any number of padding bytes before it. *)
Definition tagged (t : stag) (bs : bytes) : Prop := exists k, bs = zeros k ++ [tag_byte t].
(** An error field tag, written as a varint. *)
Definition etagged (e : etag) (bs : bytes) : Prop := is_varint bs (etag_byte e).

Inductive wstring : stag -> list N -> bytes -> Prop :=
| ws_one s lb bs : latin1_string s bs -> is_varint lb (lenN bs) -> wstring kOneByteString s (lb ++ bs)
| ws_two s lb bs : utf16_string s bs -> is_varint lb (lenN bs) -> wstring kTwoByteString s (lb ++ bs)
| ws_utf8 s lb bs : utf8_string s bs -> is_varint lb (lenN bs) -> wstring kUtf8String s (lb ++ bs)
| ws_obj s lb bs : utf8_string s bs -> is_varint lb (lenN bs) -> wstring kStringObject s (lb ++ bs).

(** A BigInt: bit 0 of the bit field is the sign, the next 30 bits are the number of digit
    bytes, least significant first. *)
Inductive wbigint : Z -> bytes -> Prop :=
| wb_intro f vb digits z :
    is_varint vb f -> bytes_ok digits -> lenN digits = f / 2 mod 2 ^ 30 ->
    z = (if N.odd f then - Z.of_N (of_le digits) else Z.of_N (of_le digits))%Z ->
    wbigint z (vb ++ digits).

Definition wdouble (bits : N) (bs : bytes) : Prop := bits < 2 ^ 64 /\ bs = le_bytes 8 bits.

(** An optional string field of an error. *)
Inductive wfield (e : etag) : option (stag * list N) -> bytes -> Prop :=
| wf_none : wfield e None []
| wf_some enc s eb tb bs : etagged e eb -> tagged enc tb -> wstring enc s bs ->
    wfield e (Some (enc, s)) (eb ++ tb ++ bs).
Inductive wproto : option etag -> bytes -> Prop :=
| wp_none : wproto None []
| wp_some e bs : In e [eEvalError; eRangeError; eReferenceError; eSyntaxError; eTypeError; eUriError] ->
    etagged e bs -> wproto (Some e) bs.

Section Version.
Variable version : N.

(** A view directly follows its buffer: no padding before its tag. *)
Inductive wviewb : option wview -> bytes -> Prop :=
| wv_none : wviewb None []
| wv_some t off len flags tb ob lb fb :
    is_varint tb (vtag_byte t) -> varint32 off ob -> varint32 len lb ->
    (14 <= version -> is_varint fb flags) -> (version < 14 -> fb = [] /\ flags = 0) ->
    wviewb (Some (mkWView t off len flags)) (tag_byte kArrayBufferView :: tb ++ ob ++ lb ++ fb).
Inductive wbufb : wbuf -> bytes -> Prop :=
| wbb_plain d lb : varint32 (lenN d) lb -> bytes_ok d -> wbufb (BufPlain d) (lb ++ d)
| wbb_resizable d mx lb mb : varint32 (lenN d) lb -> varint32 mx mb -> lenN d <= mx -> bytes_ok d ->
    wbufb (BufResizable d mx) (lb ++ mb ++ d)
| wbb_shared id b : varint32 id b -> wbufb (BufShared id) b
| wbb_transfer id b : varint32 id b -> wbufb (BufTransfer id) b.

(** [wire w bs]: bs encodes w; [wbody w bs]: bs encodes w without its tag. *)
Inductive wire : wval -> bytes -> Prop :=
| w_intro w tb bs : tagged (wtag w) tb -> wbody w bs -> wire w (tb ++ bs)
with wbody : wval -> bytes -> Prop :=
| wb_const t : In t [kTheHole; kUndefined; kNull; kTrue; kFalse] -> wbody (WConst t) []
| wb_int32 z bs : (-2 ^ 31 <= z < 2 ^ 31)%Z ->
    varint32 (Z.to_N (if z <? 0 then -2 * z - 1 else 2 * z)%Z) bs -> wbody (WInt32 z) bs
| wb_uint32 n bs : varint32 n bs -> wbody (WUint32 n) bs
| wb_double b bs : wdouble b bs -> wbody (WDouble b) bs
| wb_bigint z bs : wbigint z bs -> wbody (WBigInt z) bs
| wb_str enc s bs : wstring enc s bs -> wbody (WStr enc s) bs
| wb_boolobj b : wbody (WBoolObj b) []
| wb_numobj b bs : wdouble b bs -> wbody (WNumObj b) bs
| wb_bigobj z bs : wbigint z bs -> wbody (WBigObj z) bs
| wb_date b bs : wdouble b bs -> wbody (WDate b) bs
| wb_regexp enc s flags tb sb fb : tagged enc tb -> wstring enc s sb -> is_varint fb flags ->
    wbody (WRegExp enc s flags) (tb ++ sb ++ fb)
| wb_map ps bs eb cb : wprs ps bs -> tagged kEndJSMap eb -> is_varint cb (2 * pcount ps) ->
    wbody (WMap ps) (bs ++ eb ++ cb)
| wb_set vs bs eb cb : wseq vs bs -> tagged kEndJSSet eb -> is_varint cb (vcount vs) ->
    wbody (WSet vs) (bs ++ eb ++ cb)
| wb_object ps bs eb cb : wprs ps bs -> keys_ok ps -> tagged kEndJSObject eb ->
    is_varint cb (pcount ps) -> wbody (WObject ps) (bs ++ eb ++ cb)
| wb_dense vs ps nb vb pb eb cb lb : is_varint nb (vcount vs) -> wseq vs vb -> wprs ps pb -> keys_ok ps ->
    tagged kEndDenseJSArray eb -> is_varint cb (pcount ps) -> is_varint lb (vcount vs) ->
    wbody (WDense vs ps) (nb ++ vb ++ pb ++ eb ++ cb ++ lb)
| wb_sparse len ps nb pb eb cb lb : is_varint nb len -> wprs ps pb -> keys_ok ps ->
    tagged kEndSparseJSArray eb -> is_varint cb (pcount ps) -> is_varint lb len ->
    wbody (WSparse len ps) (nb ++ pb ++ eb ++ cb ++ lb)
| wb_error name msg stack nb mb sb eb : wproto name nb -> wfield eMessage msg mb ->
    wfield eStack stack sb -> etagged eEnd eb ->
    wbody (WError name msg stack) (nb ++ mb ++ sb ++ eb)
| wb_errorc name msg stack cause late nb mb sb tb cb lb eb : wproto name nb -> wfield eMessage msg mb ->
    wfield eStack stack sb -> etagged eCause tb -> wire cause cb -> wfield eStack late lb ->
    stack = None \/ late = None -> etagged eEnd eb ->
    wbody (WErrorC name msg stack cause late) (nb ++ mb ++ sb ++ tb ++ cb ++ lb ++ eb)
| wb_buf b v bb vb : wbufb b bb -> wviewb v vb -> wbody (WBuf b v) (bb ++ vb)
| wb_ref id v ib vb : is_varint ib id -> wviewb v vb -> wbody (WRef id v) (ib ++ vb)
| wb_sharedobj id bs : varint32 id bs -> wbody (WSharedObj id) bs
| wb_host code d cb lb : varint32 code cb -> varint32 (lenN d) lb -> bytes_ok d ->
    wbody (WHost code d) (cb ++ lb ++ d)
with wseq : wvals -> bytes -> Prop :=
| wq_nil : wseq VNil []
| wq_cons w r a b : wire w a -> wseq r b -> wseq (VCons w r) (a ++ b)
with wprs : wpairs -> bytes -> Prop :=
| wr_nil : wprs PNil []
| wr_cons k v r a b c : wire k a -> wire v b -> wprs r c -> wprs (PCons k v r) (a ++ b ++ c).
End Version.

(** A whole serialized document. *)
Definition document (w : wval) (bs : bytes) : Prop :=
  exists version tb vb body,
    13 <= version <= 15 /\ tagged kVersion tb /\ is_varint vb version /\ wire version w body /\
    bs = tb ++ vb ++ body.

(** * References
    Objects are numbered in the order they start, as this library's reader does (V8's numbering is in
    SpecV8, and C78 compares the two). [ids w n] is the number of objects numbered
    after [w], if [n] are numbered before it and every reference in [w] is to an object that
    has already started; otherwise None. *)
Definition str_ids (enc : stag) : N := if stag_eqb enc kStringObject then 1 else 0.
Definition field_ids (f : option (stag * list N)) : N := match f with Some (enc, _) => str_ids enc | None => 0 end.
Definition view_ids (v : option wview) : N := match v with Some _ => 1 | None => 0 end.
Fixpoint ids (w : wval) (n : N) {struct w} : option N :=
  match w with
  | WConst _ | WInt32 _ | WUint32 _ | WDouble _ | WBigInt _ | WHost _ _ => Some n
  | WStr enc _ => Some (n + str_ids enc)
  | WBoolObj _ | WNumObj _ | WBigObj _ | WDate _ | WSharedObj _ => Some (n + 1)
  | WRegExp enc _ _ => Some (n + str_ids enc + 1)
  | WMap ps | WObject ps | WSparse _ ps => ids_pairs ps (n + 1)
  | WSet vs => ids_vals vs (n + 1)
  | WDense vs ps => match ids_vals vs (n + 1) with Some n => ids_pairs ps n | None => None end
  | WError _ m s => Some (n + field_ids m + field_ids s + 1)
  | WErrorC _ m s c l =>
      match ids c (n + field_ids m + field_ids s + 1) with Some n => Some (n + field_ids l) | None => None end
  | WBuf (BufPlain _) v | WBuf (BufResizable _ _) v => Some (n + 1 + view_ids v)
  | WBuf (BufShared _) v | WBuf (BufTransfer _) v => Some (n + view_ids v)
  | WRef id v => if id <? n then Some (n + view_ids v) else None
  end
with ids_vals (vs : wvals) (n : N) {struct vs} : option N :=
  match vs with
  | VNil => Some n
  | VCons w r => match ids w n with Some n => ids_vals r n | None => None end
  end
with ids_pairs (ps : wpairs) (n : N) {struct ps} : option N :=
  match ps with
  | PNil => Some n
  | PCons k v r =>
      match ids k n with
      | Some n => match ids v n with Some n => ids_pairs r n | None => None end
      | None => None
      end
  end.
Definition references_backward (w : wval) : Prop := ids w 0 <> None.
