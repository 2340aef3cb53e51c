(** What the objects that loads makes are when it is given other container types. *)
From Coq Require Import List NArith ZArith Bool.
From Verif Require Import Base SpecNumber ModelValue ModelObject ModelMap ModelBuffer ModelHeap ModelDecode SpecContents ModelContainers.
Import ListNotations.
Open Scope Z_scope.

(** ** Keys of a Python dict *)
(** Bools are numbers in Python. *)
Definition python_number (v : val) : option number :=
  match v with VBool b => Some (Finite (if b then 1 else 0) 0) | VInt z => Some (Finite z 0) | VFloat bits => Some (ieee bits) | _ => None end.
Definition not_nan (v : val) : Prop := python_number v <> Some NaN.
(** Objects that are equal and have the same hash. The memory of a view of a shared or transferred buffer appears
    empty. *)
Definition no_memory (h : heap) (buffer : nat) : Prop := exists n, nth_error h buffer = Some (OShared n) \/ nth_error h buffer = Some (OTransfer n).
Definition one_object (h : heap) (x y : obj) : Prop :=
  match x, y with
  | ORegExp _ _, _ | ODate _, _ | OShared _, _ | OTransfer _, _ | OSharedRef _, _ => x = y
  | OView b _, OView b' _ => no_memory h b /\ no_memory h b'
  | _, _ => False
  end.
(** Two values that are one key. *)
Definition one_key (h : heap) (a b : val) : Prop :=
  match python_number a, python_number b with
  | Some x, Some y => x <> NaN /\ same_number x y
  | None, None =>
      match a, b with
      | VRef o, VRef o' => exists x y, nth_error h o = Some x /\ nth_error h o' = Some y /\ one_object h x y
      | _, _ => a = b
      end
  | _, _ => False
  end.
(** Values that cannot be keys: mutable containers, errors and buffers, and views of mutable buffers. *)
Definition unhashable (h : heap) (v : val) : Prop :=
  exists o x, v = VRef o /\ nth_error h o = Some x /\
    match x with
    | OMap _ | OSet _ | OObject _ | OArray _ | OError _ _ _ _ | OBuffer _ => True
    | OView b _ => exists buf, nth_error h b = Some (OBuffer buf)
    | _ => False
    end.

(** No two entries have one key. *)
Definition different {A} (same : A -> A -> Prop) (l : list A) : Prop :=
  forall i j a b, nth_error l i = Some a -> nth_error l j = Some b -> i <> j -> ~ same a b.

(** ** Maps as dicts *)
(** The dict with the items [d] has the entries of the Map with the items [items]. *)
Record as_dict (h : heap) (items d : list (val * val)) : Prop := {
  (* each item of the dict is one of the Map *)
  ad_sound : forall k v, In (k, v) d -> not_nan k -> exists k', In (k', v) items /\ one_key h k' k;
  (* no key is lost *)
  ad_complete : forall k v, In (k, v) items -> exists k' v', In (k', v') d /\ (k' = k \/ one_key h k' k);
  (* the keys of the dict are different *)
  ad_different : different (fun a b => one_key h (fst a) (fst b)) d;
  (* when the Map has no NaN and no two keys that are one key for a dict, such as 1 and true, the items are the same
     in the same order *)
  ad_same : (forall k v, In (k, v) items -> not_nan k) -> different (fun a b => one_key h (fst a) (fst b)) items ->
    Forall2 (fun a b => one_key h (fst a) (fst b) /\ snd a = snd b) items d
}.

(** ** Objects and arrays as dicts *)
(** The property that a key names (C38). *)
Definition property (cfg : dcfg) (k : val) (p : pkey) : Prop :=
  exists key, as_key k key /\ normalise_property_key (c_float_repr cfg) key = Ok p.
Record as_properties (cfg : dcfg) (h : heap) (o : jsobj val) (d : list (val * val)) : Prop := {
  ap_keys : forall k v, In (k, v) d -> exists p, property cfg k p;
  (* the dict has each property of the object *)
  ap_complete : forall p v, jo_get o p = Ok v -> exists k, In (k, v) d /\ property cfg k p;
  ap_different : different (fun a b => one_key h (fst a) (fst b)) d;
  (* and no others, when its keys name different properties; an item JSHole stands for a missing property *)
  ap_sound : different (fun a b => exists p, property cfg (fst a) p /\ property cfg (fst b) p) d ->
    forall k v p, In (k, v) d -> property cfg k p -> jo_get o p = match v with VHole => Err EKey | _ => Ok v end
}.
(** repr of equal floats is the same. *)
Definition repr_by_value (cfg : dcfg) : Prop :=
  forall a b, same_number (ieee a) (ieee b) -> (forall z, ~ same_number (ieee a) (Finite z 0)) -> c_float_repr cfg a = c_float_repr cfg b.

(** ** All objects *)
(** [x] is made by default; [x'] takes its place. *)
Definition in_place_of (T : types) (cfg : dcfg) (h : heap) (x x' : obj) : Prop :=
  match x with
  | OMap m => if t_map T then exists d, x' = ODict d /\ as_dict h (map snd m) d else x' = x
  | OObject o => if t_object T then exists d, x' = ODict d /\ as_properties cfg h o d else x' = x
  | OArray o => if t_array T then exists d, x' = ODict d /\ as_properties cfg h o d else x' = x
  (* a JSError has the message "" when there is none, JSErrorData has None *)
  | OError n m s c =>
      if t_error T then exists m0, m = Some (match m0 with Some m => m | None => [] end) /\ x' = OError n m0 s c else x' = x
  | _ => x' = x
  end.
(** An object that cannot be made with the types: a Set as a set, or a Map with a key that a dict cannot have. *)
Definition impossible (T : types) (h : heap) (x : obj) : Prop :=
  match x with
  | OSet _ => t_set T = true
  | OMap m => t_map T = true /\ exists k v, In (k, v) (map snd m) /\ unhashable h k
  | _ => False
  end.
Definition scalar_constants (cfg : dcfg) : Prop := forall t o, c_const cfg t <> VRef o.
