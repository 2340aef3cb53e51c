(** Shared base of the model: exceptions as values, the result monad, bytes. *)
From Coq Require Import List NArith ZArith Bool Lia ZifyBool ZifyNat ZifyN.
Import ListNotations.
Ltac Zify.zify_post_hook ::= Z.div_mod_to_equations.
Open Scope N_scope.

Global Arguments N.add : simpl never.
Global Arguments N.sub : simpl never.
Global Arguments N.mul : simpl never.
Global Arguments N.div : simpl never.
Global Arguments N.modulo : simpl never.
Global Arguments N.pow : simpl never.
Global Arguments N.ltb : simpl never.
Global Arguments N.leb : simpl never.
Global Arguments N.eqb : simpl never.
Global Arguments N.land : simpl never.
Global Arguments N.lor : simpl never.
Global Arguments N.shiftl : simpl never.
Global Arguments N.shiftr : simpl never.
Global Arguments Z.add : simpl never.
Global Arguments Z.sub : simpl never.
Global Arguments Z.mul : simpl never.
Global Arguments Z.div : simpl never.
Global Arguments Z.modulo : simpl never.
Global Arguments Z.pow : simpl never.
Global Arguments Z.ltb : simpl never.
Global Arguments Z.leb : simpl never.
Global Arguments Z.eqb : simpl never.
Global Arguments N.of_nat : simpl never.
Global Arguments N.to_nat : simpl never.
Global Arguments Z.of_N : simpl never.
Global Arguments Z.to_N : simpl never.

(** Every exception class the modelled code can raise; no two classes are merged. *)
Inductive exn : Type :=
| EDecode            (* DecodeV8SerializeError *)
| EUnhandledTag      (* UnhandledTagDecodeV8SerializeError, subclass of EDecode *)
| ENodeHost          (* NodeJsArrayBufferViewHostObjectHandlerDecodeError, subclass of EDecode *)
| EIndex             (* IndexError *)
| EKey               (* KeyError *)
| EValue             (* ValueError *)
| EUnicode           (* UnicodeEncodeError / UnicodeDecodeError, subclasses of ValueError *)
| EOverflow          (* OverflowError *)
| EAssert            (* AssertionError *)
| EType              (* TypeError *)
| EItemSize          (* ItemSizeJSArrayBufferError *)
| EBounds            (* BoundsJSArrayBufferError *)
| EByteLength        (* ByteLengthJSArrayBufferError *)
| EEncode            (* EncodeV8SerializeError *)
| EUnhandledValue    (* UnhandledValueEncodeV8SerializeError, subclass of EEncode *)
| EFeature           (* FeatureNotEnabledEncodeV8SerializeError, subclass of EEncode *)
| ENotSerialized     (* ObjectNotSerializedV8SerializeError *)
| EIdOutOfRange      (* SerializedIdOutOfRangeV8SerializeError *)
| EIllegalCyclic     (* IllegalCyclicReferenceV8SerializeError *)
| EForwardRef (id : nat) (* ForwardReferenceError carrying the forward reference of log entry [id] *)
| ELookup            (* LookupError *)
| ENotImplemented    (* NotImplementedError *)
| EStruct            (* struct.error *)
| EOSError           (* OSError *)
| EOutOfFuel.        (* model artefact: recursion budget exhausted *)

(** Is the exception a DecodeV8SerializeError (or a subclass of it)?
    _errors.py:15-120, decode.py:104, extensions.py:205 *)
Definition is_decode_error (e : exn) : bool :=
  match e with EDecode | EUnhandledTag | ENodeHost => true | _ => false end.

Inductive result (A : Type) : Type :=
| Ok (a : A)
| Err (e : exn).
Arguments Ok {A} a.
Arguments Err {A} e.

Definition bind {A B} (m : result A) (k : A -> result B) : result B :=
  match m with Ok a => k a | Err e => Err e end.

Declare Scope res_scope.
Delimit Scope res_scope with res.
Notation "'do' x <- m ; k" := (bind m (fun x => k))
  (at level 200, x name, m at level 100, k at level 200, right associativity) : res_scope.
Notation "'do' ' p <- m ; k" := (bind m (fun x => match x with p => k end))
  (at level 200, p pattern, m at level 100, k at level 200, right associativity) : res_scope.
Open Scope res_scope.

Lemma bind_Ok {A B} (m : result A) (k : A -> result B) r :
  bind m k = Ok r -> exists a, m = Ok a /\ k a = Ok r.
Proof. destruct m; simpl; intros H; [eauto | discriminate]. Qed.

Lemma bind_Err {A B} (m : result A) (k : A -> result B) e :
  bind m k = Err e -> m = Err e \/ exists a, m = Ok a /\ k a = Err e.
Proof. destruct m; simpl; intros H; [eauto | left; congruence]. Qed.

(** Invert every [bind _ _ = Ok _] hypothesis. *)
Ltac inv_bind :=
  repeat match goal with
  | H : bind ?m ?k = Ok ?r |- _ =>
      let a := fresh "a" in let E := fresh "E" in
      apply bind_Ok in H; destruct H as [a [E H]]
  | H : Ok _ = Ok _ |- _ => injection H as H; try subst
  | H : Err _ = Ok _ |- _ => discriminate H
  | H : (let '(_, _) := ?p in _) = _ |- _ => destruct p
  end.

Definition guard (b : bool) (e : exn) : result unit := if b then Ok tt else Err e.

Lemma guard_Ok b e u : guard b e = Ok u -> b = true.
Proof. unfold guard; destruct b; congruence. Qed.

(** Bytes and byte strings. *)
Definition byte := N.
Definition bytes := list N.
Definition is_byte (b : N) : Prop := b < 256.
Definition bytes_ok (bs : bytes) : Prop := Forall is_byte bs.

Lemma bytes_ok_app a b : bytes_ok (a ++ b) <-> bytes_ok a /\ bytes_ok b.
Proof. apply Forall_app. Qed.

(** Length of a list as an N. *)
Definition lenN {A} (l : list A) : N := N.of_nat (length l).

Lemma lenN_app {A} (a b : list A) : lenN (a ++ b) = lenN a + lenN b.
Proof. unfold lenN. rewrite app_length. lia. Qed.
Lemma lenN_cons {A} (a : A) b : lenN (a :: b) = 1 + lenN b.
Proof. unfold lenN. simpl. lia. Qed.
Lemma lenN_nil {A} : lenN (@nil A) = 0.
Proof. reflexivity. Qed.

(** data[pos:pos+count] *)
Definition slice (data : bytes) (pos count : nat) : bytes := firstn count (skipn pos data).

Lemma skipn_app_length {A} (a b : list A) : skipn (length a) (a ++ b) = b.
Proof. rewrite skipn_app, skipn_all, Nat.sub_diag. reflexivity. Qed.

Lemma nth_error_app_length {A} (a : list A) x b : nth_error (a ++ x :: b) (length a) = Some x.
Proof. rewrite nth_error_app2 by lia. rewrite Nat.sub_diag. reflexivity. Qed.

Lemma slice_app pre bs post : slice (pre ++ bs ++ post) (length pre) (length bs) = bs.
Proof.
  unfold slice. rewrite skipn_app_length.
  rewrite firstn_app, firstn_all, Nat.sub_diag. simpl. apply app_nil_r.
Qed.

(** Little-endian fixed-width integers ([int.to_bytes]/[from_bytes], [struct] "<..."). *)
Fixpoint le_bytes (k : nat) (n : N) : bytes :=
  match k with
  | O => []
  | S k' => n mod 256 :: le_bytes k' (n / 256)
  end.

Fixpoint of_le (bs : bytes) : N :=
  match bs with
  | [] => 0
  | b :: r => b + 256 * of_le r
  end.

Lemma le_bytes_length k n : length (le_bytes k n) = k.
Proof. revert n; induction k; simpl; intros; auto. Qed.

Lemma le_bytes_ok k n : bytes_ok (le_bytes k n).
Proof.
  unfold bytes_ok. revert n; induction k; intros n; cbn [le_bytes]; constructor.
  - unfold is_byte. apply N.mod_lt. lia.
  - apply IHk.
Qed.

Lemma of_le_le_bytes k n : n < 256 ^ N.of_nat k -> of_le (le_bytes k n) = n.
Proof.
  revert n; induction k; intros n H.
  - simpl in *. change (256 ^ N.of_nat 0) with 1 in H. lia.
  - rewrite Nat2N.inj_succ, N.pow_succ_r' in H. cbn [le_bytes of_le].
    rewrite IHk.
    + lia.
    + apply N.div_lt_upper_bound; [lia | exact H].
Qed.

Lemma of_le_bound bs : bytes_ok bs -> of_le bs < 256 ^ lenN bs.
Proof.
  induction 1 as [|b r Hb Hr IH]; cbn [of_le].
  - reflexivity.
  - rewrite lenN_cons, N.add_1_l, N.pow_succ_r'. unfold is_byte in Hb. nia.
Qed.

Lemma le_bytes_of_le bs : bytes_ok bs -> le_bytes (length bs) (of_le bs) = bs.
Proof.
  induction 1 as [|b r Hb Hr IH]; cbn [of_le le_bytes length]; auto.
  unfold is_byte in Hb.
  replace ((b + 256 * of_le r) mod 256) with b by lia.
  replace ((b + 256 * of_le r) / 256) with (of_le r) by lia.
  congruence.
Qed.

(** [k] padding bytes. *)
Definition zeros (k : nat) : bytes := repeat 0%N k.
Lemma zeros_length k : length (zeros k) = k.
Proof. apply repeat_length. Qed.
