(** When JavaScript has two keys of a Map, or two members of a Set, for different. *)
From Coq Require Import List NArith ZArith Bool.
From Verif Require Import Base ModelTags SpecNumber ModelValue SpecWire.
Import ListNotations.
Open Scope Z_scope.

(** JavaScript's values as keys. An object is its identity. *)
Inductive jsvalue : Type :=
| JsNumber (x : number)
| JsBigInt (z : Z)
| JsString (s : list N)
| JsConst (t : stag)
| JsObject (o : nat).
(** SameValueZero, ECMA-262 7.2.12: values of different types are different, also 1 and 1n. *)
Definition js_equal (a b : jsvalue) : Prop :=
  match a, b with
  | JsNumber x, JsNumber y => same_number x y
  | JsBigInt x, JsBigInt y => x = y
  | JsString s, JsString t => s = t
  | JsConst t, JsConst u => t = u
  | JsObject o, JsObject p => o = p
  | _, _ => False
  end.
(** The encoded value [w], decoded as [v], is the JavaScript value. An encoded object or reference is the object it
    decodes to. Number, String, Boolean and BigInt objects, which decode to plain values, are left out. *)
Inductive js_value : wval -> val -> jsvalue -> Prop :=
| jv_int32 z v : js_value (WInt32 z) v (JsNumber (Finite z 0))
| jv_uint32 n v : js_value (WUint32 n) v (JsNumber (Finite (Z.of_N n) 0))
| jv_double b v : js_value (WDouble b) v (JsNumber (ieee b))
| jv_bigint z v : js_value (WBigInt z) v (JsBigInt z)
| jv_str enc s v : enc <> kStringObject -> js_value (WStr enc s) v (JsString s)
| jv_const t v : In t [kTheHole; kUndefined; kNull; kTrue; kFalse] -> js_value (WConst t) v (JsConst t)
| jv_object w o : (match w with WConst _ => False | _ => True end) -> js_value w (VRef o) (JsObject o).

(** Pairwise different, at different places of the list. *)
Definition pairwise {A} (R : A -> A -> Prop) (l : list A) : Prop :=
  forall i j a b, nth_error l i = Some a -> nth_error l j = Some b -> i <> j -> R a b.
(** A BigInt and a Number with the same value, such as 1n and 1. *)
Definition clash (a b : jsvalue) : Prop :=
  match a, b with JsBigInt z, JsNumber x => same_number x (Finite z 0) | _, _ => False end.

Fixpoint wkeys (ps : wpairs) : list wval := match ps with PNil => [] | PCons k _ r => k :: wkeys r end.
Fixpoint wlist (vs : wvals) : list wval := match vs with VNil => [] | VCons w r => w :: wlist r end.
(** The JavaScript values of a list of encoded and decoded values. *)
Inductive js_values : list wval -> list val -> list jsvalue -> Prop :=
| jvs_nil : js_values [] [] []
| jvs_cons w v j ws vs js : js_value w v j -> js_values ws vs js -> js_values (w :: ws) (v :: vs) (j :: js).
