(** Model of JSObject and JSArray in use: by key (ModelObject.v), through the [array] attribute and a
    reference to it kept by the caller, through [properties] and through [array.elements()]; and their
    constructors. /repo/src/v8serialize/jstypes/jsobject.py, jsarray.py, jsarrayproperties.py.
    Assigning to the attributes [array] or [properties] from outside is not modelled. *)
From Coq Require Import List NArith ZArith Bool.
From Verif Require Import Base Dict SpecArray ModelArray ModelValue SpecObject ModelObject SpecObjectUse.
Import ListNotations.
Open Scope Z_scope.

Section Use.
Context {T : Type} (float_repr : N -> list N).
Notation norm := (normalise_property_key float_repr).

(** The object, and the array object that [array] held before _ensure_array_capacity assigned a new
    one to it (jsobject.py:186-188); it does so at most once, because only a dense array is replaced. *)
Record use : Type := mkUse { u_obj : jsobj T; u_left : option (arr T) }.

(** The state of the references after a method that changed the object from [o] to [o']: if the array
    was replaced, the array object of [o] stays as it was. *)
Definition track (o o' : jsobj T) (l : option (arr T)) : option (arr T) :=
  match jo_arr o, jo_arr o' with
  | ADense d, ASparse _ => Some (ADense d)
  | _, _ => l
  end.

(** __setitem__ after normalisation, jsobject.py:160-170 *)
Definition use_set (u : use) (p : pkey) (v : option T) : result unit * use :=
  let '(r, o) := jo_set (u_obj u) p v in (r, mkUse o (track (u_obj u) o (u_left u))).

(** MutableMapping.update: one __setitem__ after the other (jo_update, with the references) *)
Fixpoint use_update (u : use) (ps : list (key * option T)) : result unit * use :=
  match ps with
  | [] => (Ok tt, u)
  | (k, v) :: r =>
      match norm k with
      | Err e => (Err e, u)
      | Ok p => match use_set u p v with
                | (Ok _, u) => use_update u r
                | (Err e, u) => (Err e, u)
                end
      end
  end.

Definition use_key (u : use) (op : mop T) : mresp T * use :=
  match op with
  | MUpdate ps => match use_update u ps with (Ok _, u) => (MUnit, u) | (Err e, u) => (MExn e, u) end
  | _ => let '(r, o) := jo_op float_repr (u_obj u) op in (r, mkUse o (track (u_obj u) o (u_left u)))
  end.

(** o.array.method(...): reads the attribute, then calls the method on that array object *)
Definition use_array (u : use) (op : aop T) : resp T * use :=
  let '(r, a) := arr_op (jo_arr (u_obj u)) op in (r, mkUse (mkObj a (jo_props (u_obj u))) (u_left u)).

(** The same on the array object that [array] held at the start *)
Definition use_held (u : use) (op : aop T) : resp T * use :=
  match u_left u with
  | None => use_array u op
  | Some a => let '(r, a) := arr_op a op in (r, mkUse (u_obj u) (Some a))
  end.

(** o.properties: MappingProxyType of the dict, jsobject.py:139; keys are not normalised *)
Definition use_named (u : use) (op : nop) : mresp T :=
  match op with
  | NGet s => match dget listN_eqb s (jo_props (u_obj u)) with Some v => MVal v | None => MExn EKey end
  | NLen => MNum (zlen (jo_props (u_obj u)))
  | NIter => MKeys (map PStr (dkeys (jo_props (u_obj u))))
  end.

(** o.array.elements(): ArrayPropertiesElementsView, jsarrayproperties.py:654-676 *)
Definition use_elements (u : use) (op : eop) : uresp T * use :=
  match op with
  | EGet i => (RKey (match view_get (jo_arr (u_obj u)) i with Ok v => MVal v | Err e => MExn e end), u)
  | ELen => (RKey (MNum (arr_used (jo_arr (u_obj u)))), u)
  | EItems => let '(r, a) := view_items (jo_arr (u_obj u)) in
              (match r with Ok l => RItems l | Err e => RKey (MExn e) end, mkUse (mkObj a (jo_props (u_obj u))) (u_left u))
  end.

Definition use_op (u : use) (op : uop T) : uresp T * use :=
  match op with
  | UKey o => let '(r, u) := use_key u o in (RKey r, u)
  | UArray o => let '(r, u) := use_array u o in (RArray r, u)
  | UHeld o => let '(r, u) := use_held u o in (RArray r, u)
  | UNamed o => (RKey (use_named u o), u)
  | UElements o => use_elements u o
  end.
Fixpoint use_ops (u : use) (ops : list (uop T)) : list (uop T * uresp T) * use :=
  match ops with
  | [] => ([], u)
  | x :: rest => let '(r, u1) := use_op u x in let '(tr, u2) := use_ops u1 rest in ((x, r) :: tr, u2)
  end.

(** * Constructors *)
Definition fresh : use := mkUse jo_empty None.
(** JSObject.__init__, jsobject.py:127-142: [properties] as the pairs that update() goes through *)
Definition object_new (properties : list (key * option T)) (kwargs : list (list N * option T)) : result unit * use :=
  match use_update fresh properties with
  | (Err e, u) => (Err e, u)
  | (Ok _, u) => match kwargs with [] => (Ok tt, u) | _ => use_update u (map (fun p => (KStr (fst p), snd p)) kwargs) end
  end.
(** What JSArray's first argument is: something with keys() and __getitem__, as its pairs, or an iterable of values *)
Inductive source : Type := Pairs (ps : list (key * option T)) | Values (vs : list (option T)).
(** JSArray.__init__, jsarray.py:160-177 *)
Definition array_new (src : source) (kwargs : list (list N * option T)) : result unit * use :=
  let '(r, u) := match src with
                 | Pairs ps => use_update fresh ps
                 | Values vs => let '(r, a) := arr_extend (jo_arr (u_obj fresh)) vs in
                                (r, mkUse (mkObj a (jo_props (u_obj fresh))) (u_left fresh))
                 end in
  match r with
  | Err e => (Err e, u)
  | Ok _ => use_update u (map (fun p => (KStr (fst p), snd p)) kwargs)
  end.
End Use.
Arguments use : clear implicits.
Arguments source : clear implicits.
