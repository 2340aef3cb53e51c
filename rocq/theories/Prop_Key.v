(** C38: property key normalisation. C41: the same-value-zero key. *)
From Coq Require Import List NArith ZArith Bool Lia.
From Verif Require Import Base SpecNumber ModelValue SpecKey ValueFacts KeyFacts.
Import ListNotations.
Open Scope Z_scope.

(** normalise_property_key gives the int [n] exactly when [n] is an array index and the key denotes it.
    [float_repr] stands for Python's repr of floats that are not integral. *)
Theorem C38_int_iff_index : forall float_repr k n,
  normalise_property_key float_repr k = Ok (PInt n) <-> array_index n /\ denotes k n.
Proof. exact normalise_index. Qed.

(** Otherwise the result is a string: the key itself, or the decimal form of an integral number. *)
Theorem C38_otherwise_string_partial : forall float_repr k,
  ~ too_long k -> (forall n, array_index n -> ~ denotes k n) ->
  exists s, normalise_property_key float_repr k = Ok (PStr s) /\
    match k with
    | KStr t => s = t
    | KInt z => znumeral s z
    | KFloat bits => forall z, same_number (ieee bits) (Finite z 0) -> znumeral s z
    end.
Proof.
  intros fr k L D. destruct (normalise_property_key fr k) as [[s|n]|e] eqn:E.
  - exists s. split; [reflexivity|]. apply (normalise_string fr k s E).
  - apply normalise_index in E as [A B]. destruct (D n A B).
  - apply normalise_error in E as [_ E]. contradiction.
Qed.

(** It fails only for ints and digit strings beyond Python's conversion limit, with ValueError. *)
Theorem C38_raises_only_on_limit : forall float_repr k e,
  normalise_property_key float_repr k = Err e <-> e = EValue /\ too_long k.
Proof.
  intros fr k e. split; [apply normalise_error|]. intros [-> T]. apply normalise_too_long. auto.
Qed.

(** Idempotence; repr of a non-integral float is not all digits. *)
Theorem C38_idempotent : forall float_repr k p,
  (forall bits m e, ieee bits = Finite m e -> (forall z, ~ same_number (ieee bits) (Finite z 0)) ->
     ~ digits (float_repr bits)) ->
  normalise_property_key float_repr k = Ok p -> normalise_property_key float_repr (key_of p) = Ok p.
Proof.
  intros fr k p FR H. apply normalise_idempotent with k; auto.
  intros bits m e I F. apply (FR bits m e I). intros z Z. apply float_int_spec in Z. congruence.
Qed.

(** Keys with the same JavaScript name normalise to the same key, and conversely. Missing from the
    full claim: non-integral floats, NaN, infinities and floats from 2^53 on (see C77), names longer than
    4300 characters. *)
Theorem C38_same_name_partial : forall float_repr k k' s,
  js_name k s -> js_name k' s -> plain k -> plain k' -> (length s <= 4300)%nat ->
  exists p, normalise_property_key float_repr k = Ok p /\ normalise_property_key float_repr k' = Ok p.
Proof.
  intros fr k k' s N N' P P' L.
  destruct (name_normalise fr k s N P L) as [p [A B]]. destruct (name_normalise fr k' s N' P' L) as [p' [A' B']].
  exists p. split; [exact A|]. rewrite A'. rewrite <- B'. exact B.
Qed.
Theorem C38_same_key_same_name : forall float_repr k k' p,
  normalise_property_key float_repr k = Ok p -> normalise_property_key float_repr k' = Ok p ->
  plain k -> plain k' -> safe_integer k -> safe_integer k' ->
  exists s, js_name k s /\ js_name k' s.
Proof.
  intros fr k k' p H H' P P' B B'. eexists. split; eapply normalise_name; eauto.
Qed.

Definition nan_bits : N := 9221120237041090560. (* 0x7ff8000000000000 *)
(** JavaScript's o[NaN] is o["NaN"]; here they are two keys. *)
Theorem C38_refuted_nan : exists float_repr k k' s, js_name k s /\ js_name k' s /\
  normalise_property_key float_repr k <> normalise_property_key float_repr k'.
Proof.
  exists (fun _ => []), (KFloat nan_bits), (KStr [78; 97; 78]%N), [78; 97; 78]%N.
  split; [apply name_nan; vm_compute; reflexivity|]. split; [constructor|].
  vm_compute. discriminate.
Qed.
(** "1" * 4301 is a perfectly good property name, but raises ValueError. *)
Theorem C38_refuted_long_digits : exists s, forall float_repr,
  js_name (KStr s) s /\ normalise_property_key float_repr (KStr s) = Err EValue.
Proof.
  exists (repeat 49%N 4301). intros fr. split; [constructor|].
  apply C38_raises_only_on_limit. split; [reflexivity|]. split.
  - apply Forall_forall. intros x X. apply repeat_spec in X. subst. lia.
  - rewrite repeat_length. vm_compute. reflexivity.
Qed.

(** "7", 7 and 7.0 meet the hypotheses and give 7; "07" and "4294967295" stay strings. *)
Example C38_case : let fr := fun _ : N => @nil N in
  normalise_property_key fr (KStr [55]%N) = Ok (PInt 7) /\
  normalise_property_key fr (KInt 7) = Ok (PInt 7) /\
  normalise_property_key fr (KFloat 4619567317775286272) = Ok (PInt 7) /\
  normalise_property_key fr (KStr [48; 55]%N) = Ok (PStr [48; 55]%N) /\
  normalise_property_key fr (KInt 4294967295) = Ok (PStr [52; 50; 57; 52; 57; 54; 55; 50; 57; 53]%N) /\
  normalise_property_key fr (KInt (-1)) = Ok (PStr [45; 49]%N).
Proof. repeat split; vm_compute; reflexivity. Qed.
Example C38_name_case : js_name (KInt (-1)) [45; 49]%N /\ js_name (KStr [45; 49]%N) [45; 49]%N.
Proof. split; [constructor|constructor]. exact (dec_Z_numeral (-1)). Qed.

(** ** C41 *)
(** Where the key is defined, two values have equal keys exactly when JavaScript's SameValueZero
    identifies them (Python bytes objects count by content). [bytes_of] gives the content of the
    objects that are bytes. *)
Theorem C41_identifies_as_javascript : forall bytes_of a b ka kb,
  same_value_zero bytes_of a = Ok ka -> same_value_zero bytes_of b = Ok kb ->
  (svz_eqb ka kb = true <-> js_same bytes_of a b).
Proof. exact svz_js_same. Qed.
(** It is defined for every value but ints beyond the range of floats. *)
Theorem C41_defined_partial : forall bytes_of v,
  (forall z, v = VInt z -> Z.abs z < 2 ^ 1024 - 2 ^ 970) -> exists k, same_value_zero bytes_of v = Ok k.
Proof.
  intros bo v H. destruct (same_value_zero bo v) as [k|e] eqn:E; [eauto|].
  apply svz_error in E as [_ [z [-> L]]]. specialize (H z eq_refl).
  exfalso. apply (Z.lt_irrefl (Z.abs z)). eapply Z.lt_le_trans; eauto.
Qed.
(** Which raise OverflowError. *)
Theorem C41_refuted_defined : exists v, forall bytes_of, same_value_zero bytes_of v = Err EOverflow.
Proof. exists (VInt (2 ^ 1024)). intros. vm_compute. reflexivity. Qed.

Example C41_case : let f := same_value_zero (fun _ => None) in
  f (VInt 0) = f (VFloat (2 ^ 63)) /\ f (VFloat nan_bits) = f (VFloat (nan_bits + 1)) /\
  f (VInt 1) <> f (VBool true) /\ f (VRef 0) <> f (VRef 1).
Proof. vm_compute. repeat split; discriminate. Qed.

Print Assumptions C38_int_iff_index.
Print Assumptions C38_otherwise_string_partial.
Print Assumptions C38_raises_only_on_limit.
Print Assumptions C38_idempotent.
Print Assumptions C38_same_name_partial.
Print Assumptions C38_same_key_same_name.
Print Assumptions C38_refuted_nan.
Print Assumptions C38_refuted_long_digits.
Print Assumptions C41_identifies_as_javascript.
Print Assumptions C41_defined_partial.
Print Assumptions C41_refuted_defined.
