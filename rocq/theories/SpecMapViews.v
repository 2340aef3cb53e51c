(** C84: the keys of a map, up to JavaScript's equality. *)
From Coq Require Import List NArith ZArith Bool.
From Verif Require Import Base SpecNumber ModelValue SpecKey SpecMap ModelMap.
Import ListNotations.
Open Scope Z_scope.

Section Spec.
Context {V K : Type}.
Variable bytes_of : nat -> option bytes.
Notation same := (js_same bytes_of).

(** A map made by any sequence of the operations of C39 *)
Definition made_map (m : jsmap V) : Prop := exists ops tr, jm_ops bytes_of [] ops = (tr, m).
(** [k] is one of the keys; [v] is the value of the key [k] *)
Definition has_key (m : jsmap V) (k : val) : Prop := exists k' v, In (k', v) (map snd m) /\ same k' k.
Definition has_item (m : jsmap V) (k : val) (v : V) : Prop := exists k', In (k', v) (map snd m) /\ same k' k.
(** The keys are hashable, and Python compares them as JavaScript does *)
Definition agreeing (dict_key : val -> option K) (l : list val) : Prop :=
  (forall x, In x l -> dict_key x <> None) /\
  (forall x y, In x l -> In y l -> (dict_key x = dict_key y <-> same x y)).
End Spec.
