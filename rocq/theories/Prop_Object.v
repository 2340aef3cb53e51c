(** C33: JSObject is a mapping over normalised keys with JavaScript's property order. *)
From Coq Require Import List NArith ZArith Bool Lia.
From Verif Require Import Base Dict SpecArray ModelValue SpecObject ModelObject KeyFacts ObjectFacts.
Import ListNotations.
Open Scope Z_scope.

(** Every run of operations on a new object answers as the dict does, except that changing an integer
    key may raise AssertionError, after the change, in a state with at most two integer keys
    ([mdeviation]). *)
Theorem C33_object_refines_dict_partial : forall T float_repr (ops : list (mop T)) trace o,
  jo_ops float_repr jo_empty ops = (trace, o) ->
  exists m, mspecs (normalise_property_key float_repr) false [] trace m.
Proof.
  intros T fr ops tr o H. destruct (jo_ops_refines fr ops _ _ _ _ rep_empty H) as [m [_ [S _]]]. eauto.
Qed.

(** As long as no integer key of 15 or more is used the claim holds in full. *)
Theorem C33_object_refines_dict_small_keys : forall T float_repr (ops : list (mop T)) trace o,
  (forall op k p, In op ops -> In k (match op with
     | MGet k | MSet k _ | MDel k | MContains k | MPop k | MSetDefault k _ => [k]
     | MUpdate ps => map fst ps
     | _ => [] end) -> normalise_property_key float_repr k = Ok p -> forall z, p = PInt z -> z < 15) ->
  jo_ops float_repr jo_empty ops = (trace, o) ->
  exists m, mspecs (normalise_property_key float_repr) true [] trace m.
Proof.
  intros T fr ops tr o SM H. destruct (jo_ops_refines fr ops _ _ _ _ rep_empty H) as [m [_ [_ S]]].
  exists m. apply S; [reflexivity|]. apply Forall_forall. intros op I. specialize (SM op).
  assert (forall p, (forall z, p = PInt z -> z < 15) -> small p) as SP.
  { intros [s|z] HP; cbn; auto. }
  destruct op as [k|k v|k|k| | |k|k v|ps| |]; cbn [op_small]; auto;
    try (intros p N; apply SP; apply (SM k p I); cbn; auto; fail).
  intros k v p IN N. apply SP. apply (SM k p I); auto. apply (in_map fst) in IN. exact IN.
Qed.

(** The claim in full is false: o[0] = a; o[1] = b; o[100] = c; del o[0]; del o[1] ends in AssertionError
    (the key is gone all the same). *)
Definition delete_two : list (mop nat) :=
  [MSet (KInt 0) (Some 7); MSet (KInt 1) (Some 8); MSet (KInt 100) (Some 9); MDel (KInt 0); MDel (KInt 1)]%nat.
Theorem C33_refuted_delete_assertion : exists ops : list (mop nat), forall float_repr, exists trace o,
  jo_ops float_repr jo_empty ops = (trace, o) /\
  nth_error trace 4 = Some (MDel (KInt 1), MExn EAssert) /\
  forall m, ~ mspecs (normalise_property_key float_repr) true [] trace m.
Proof.
  exists delete_two. intros fr.
  exists [(MSet (KInt 0) (Some 7%nat), MUnit); (MSet (KInt 1) (Some 8%nat), MUnit); (MSet (KInt 100) (Some 9%nat), MUnit);
          (MDel (KInt 0), MUnit); (MDel (KInt 1), MExn EAssert)].
  eexists. split; [vm_compute; reflexivity|]. split; [reflexivity|].
  intros m H.
  repeat match goal with X : mspecs _ true _ (_ :: _) _ |- _ => inversion X; subst; clear X end.
  repeat match goal with X : mspec _ _ _ _ _ \/ true = false /\ _ |- _ => destruct X as [X|[X _]]; [|discriminate X] end.
  match goal with X : mspec _ _ _ (MExn EAssert) _ |- _ => inversion X; subst end.
  match goal with X : normalise_property_key _ _ = Err _ |- _ => apply normalise_error in X as [X _]; discriminate X end.
Qed.

(** A run with string and integer keys, in and out of order. *)
Example C33_case : fst (jo_ops (fun _ => []) jo_empty
    [MSet (KStr [98]%N) (Some 1); MSet (KInt 3) (Some 2); MSet (KStr [97]%N) (Some 3); MSet (KStr [49]%N) (Some 4);
     MIter; MDel (KStr [98]%N); MLen; MGet (KStr [51]%N)]%nat) =
  [(MSet (KStr [98]%N) (Some 1%nat), MUnit); (MSet (KInt 3) (Some 2%nat), MUnit); (MSet (KStr [97]%N) (Some 3%nat), MUnit);
   (MSet (KStr [49]%N) (Some 4%nat), MUnit); (MIter, MKeys [PInt 1; PInt 3; PStr [98]%N; PStr [97]%N]);
   (MDel (KStr [98]%N), MUnit); (MLen, MNum 3); (MGet (KStr [51]%N), MVal 2%nat)].
Proof. vm_compute. reflexivity. Qed.

Print Assumptions C33_object_refines_dict_partial.
Print Assumptions C33_object_refines_dict_small_keys.
Print Assumptions C33_refuted_delete_assertion.
