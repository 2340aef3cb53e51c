(** What a repr means: the Python expressions that JSRepr's text is made of, and their values.

    This is the fragment of Python that constructor calls with literals need: names, numbers, strings, list, tuple and dict
    displays, and calls with positional, keyword and ** arguments. A text that Python rejects, or that raises an exception, has no
    value here; so has a text with something else in it. *)
From Coq Require Import Ascii String List NArith ZArith Bool Arith.
From Verif Require Import Base Dict SpecNumber ModelTags ModelArray ModelValue ModelObject ModelMap ModelHeap ModelEncode ModelReprText ArrayFacts3 SpecEq.
Import ListNotations.
Open Scope list_scope.
Open Scope nat_scope.

(** * Syntax *)
Inductive akind : Type := APos | AKey (n : list N) | AStar.
Inductive expr : Type :=
| ELit (v : val)
| EName (n : list N)
| EList (l : list expr)
| ETuple (l : list expr)
| EDict (l : list (expr * expr))
| ECall (f : list N) (args : list (akind * expr)).

Section Parse.
(** keyword.iskeyword, and the normalisation (NFKC) of names in source text *)
Variable keyword : list N -> bool.
Variable nfkc : list N -> list N.

(** White space between tokens does not matter inside brackets. *)
Definition strip (ts : list tok) : list tok := filter (fun k => match k with TSpace | TLine _ => false | _ => true end) ts.
Definition sym_eqb (a b : sym) : bool :=
  match a, b with
  | LPar, LPar | RPar, RPar | LBracket, LBracket | RBracket, RBracket | LBrace, LBrace | RBrace, RBrace
  | Comma, Comma | Colon, Colon | Equals, Equals | StarStar, StarStar => true
  | _, _ => false
  end.
(** Items separated by commas, a comma after the last one being allowed, up to the closing symbol. *)
Section Items.
Context {A : Type}.
Variable item : list tok -> option (A * list tok).
Variable close : sym.
Definition closes (ts : list tok) : option (list tok) :=
  match ts with TSym c :: r => if sym_eqb c close then Some r else None | _ => None end.
Fixpoint items (fuel : nat) (ts : list tok) : option (list A * list tok) :=
  match fuel with
  | O => None
  | S fuel =>
      match closes ts with
      | Some r => Some ([], r)
      | None =>
          match item ts with
          | Some (x, TSym Comma :: r) => match items fuel r with Some (l, r) => Some (x :: l, r) | None => None end
          | Some (x, r) => match closes r with Some r => Some ([x], r) | None => None end
          | None => None
          end
      end
  end.
End Items.
(** [fuel] bounds the nesting and the number of items; the number of tokens is enough. *)
Fixpoint expression (fuel : nat) (ts : list tok) : option (expr * list tok) :=
  match fuel with
  | O => None
  | S fuel =>
      let pair ts :=
        match expression fuel ts with
        | Some (k, TSym Colon :: r) => match expression fuel r with Some (v, r) => Some ((k, v), r) | None => None end
        | _ => None
        end in
      let argument ts :=
        match ts with
        | TName k :: TSym Equals :: r =>
            if keyword k then None else match expression fuel r with Some (e, r) => Some ((AKey (nfkc k), e), r) | None => None end
        | TSym StarStar :: r => match expression fuel r with Some (e, r) => Some ((AStar, e), r) | None => None end
        | _ => match expression fuel ts with Some (e, r) => Some ((APos, e), r) | None => None end
        end in
      match ts with
      | TInt z :: r => Some (ELit (VInt z), r)
      | TFloat b :: r => Some (ELit (VFloat b), r)
      | TStr s :: r => Some (ELit (VStr s), r)
      | TName f :: TSym LPar :: r =>
          if keyword f then None else match items argument RPar fuel r with Some (l, r) => Some (ECall (nfkc f) l, r) | None => None end
      | TName n :: r => Some (EName n, r)
      | TSym LBracket :: r => match items (expression fuel) RBracket fuel r with Some (l, r) => Some (EList l, r) | None => None end
      | TSym LBrace :: r => match items pair RBrace fuel r with Some (l, r) => Some (EDict l, r) | None => None end
      | TSym LPar :: TSym RPar :: r => Some (ETuple [], r)
      | TSym LPar :: r =>
          match expression fuel r with
          | Some (a, TSym Comma :: r) => match items (expression fuel) RPar fuel r with Some (l, r) => Some (ETuple (a :: l), r) | None => None end
          | Some (a, TSym RPar :: r) => Some (a, r)
          | _ => None
          end
      | _ => None
      end
  end.
Definition parse (ts : list tok) : option expr :=
  match expression (List.length (strip ts)) (strip ts) with Some (e, []) => Some e | _ => None end.
End Parse.

(** * Values *)
(** Values of expressions: a value, or a new list, tuple or dict. *)
Inductive pv : Type := PV (v : val) | PList (l : list pv) | PTuple (l : list pv) | PDict (l : list (val * pv)).
Definition as_val (x : pv) : option val := match x with PV v => Some v | _ => None end.
Fixpoint all_some {A} (l : list (option A)) : option (list A) :=
  match l with
  | [] => Some []
  | Some x :: l => match all_some l with Some l => Some (x :: l) | None => None end
  | None :: _ => None
  end.
Section Eval.
Variable float_repr : N -> list N.

(** A dict display: keys must be hashable; for equal keys the first key and the last value stay. *)
Fixpoint put_entry (H : heap) (k : hkey) (kv : val * pv) (l : list (val * pv)) : list (val * pv) :=
  match l with
  | [] => [kv]
  | (k', v') :: r =>
      if match hash H 1 k' with Some h => hkey_eqb h k | None => false end then (k', snd kv) :: r else (k', v') :: put_entry H k kv r
  end.
Fixpoint dict_display (H : heap) (ps : list (pv * pv)) (l : list (val * pv)) : option (list (val * pv)) :=
  match ps with
  | [] => Some l
  | (PV k, v) :: ps => match hash H 1 k with Some h => dict_display H ps (put_entry H h (k, v) l) | None => None end
  | _ => None
  end.
Definition elem_of (v : val) : option val := match v with VHole => None | _ => Some v end.
Definition property_key (v : val) : option key :=
  match v with VStr s => Some (KStr s) | VInt z => Some (KInt z) | VFloat b => Some (KFloat b) | _ => None end.
(** The keyword arguments of a call: names must differ; ** takes a dict with str keys. *)
Fixpoint keywords (kw : list (list N * pv)) (seen : list (list N)) : option (list (list N * val)) :=
  match kw with
  | [] => Some []
  | (n, x) :: kw =>
      if existsb (listN_eqb n) seen then None
      else match as_val x, keywords kw (n :: seen) with Some v, Some r => Some ((n, v) :: r) | _, _ => None end
  end.
Definition update_with (o : jsobj val) (ps : list (option key * option val)) : option (jsobj val) :=
  match all_some (map (fun p => match p with (Some k, Some v) => Some (k, elem_of v) | _ => None end) ps) with
  | None => None
  | Some ps => match jo_update float_repr o ps with (Ok _, o) => Some o | _ => None end
  end.
Definition dict_items (l : list (val * pv)) : list (option key * option val) := map (fun p => (property_key (fst p), as_val (snd p))) l.
Definition name_items (l : list (list N * val)) : list (option key * option val) := map (fun p => (Some (KStr (fst p)), Some (snd p))) l.
(** JSObject(properties=(), /, **kwargs) *)
Definition new_object (pos : list pv) (kw : list (list N * val)) : option (jsobj val) :=
  match match pos with [] => Some jo_empty | [PDict l] => update_with jo_empty (dict_items l) | _ => None end with
  | Some o => update_with o (name_items kw)
  | None => None
  end.
(** JSArray(properties=(), /, **kwargs) *)
Definition new_array (pos : list pv) (kw : list (list N * val)) : option (jsobj val) :=
  match
    match pos with
    | [] => Some jo_empty
    | [PDict l] => update_with jo_empty (dict_items l)
    | [PList l] => match all_some (map as_val l) with
                   | Some vs => match arr_extend (jo_arr jo_empty) (map elem_of vs) with (Ok _, a) => Some (mkObj a []) | _ => None end
                   | None => None
                   end
    | _ => None
    end
  with
  | Some o => update_with o (name_items kw)
  | None => None
  end.
(** JSMap(init=None) *)
Definition new_map (H : heap) (pos : list pv) (kw : list (list N * val)) : option (jsmap val) :=
  match kw with _ :: _ => None | [] =>
    match
      match pos with
      | [] => Some []
      | [PDict l] => all_some (map (fun p => match as_val (snd p) with Some v => Some (fst p, v) | None => None end) l)
      | [PList l] => all_some (map (fun x => match x with PTuple [PV k; PV v] => Some (k, v) | _ => None end) l)
      | _ => None
      end
    with
    | Some ps => match jm_update (heap_bytes H) [] ps with (Ok _, m) => Some m | _ => None end
    | None => None
    end
  end.
(** JSSet(iterable=None) *)
Definition new_set (H : heap) (pos : list pv) (kw : list (list N * val)) : option jsset :=
  match kw with _ :: _ => None | [] =>
    match match pos with [] => Some [] | [PList l] => all_some (map as_val l) | _ => None end with
    | Some vs => match js_union (heap_bytes H) [] vs with (Ok _, m) => Some m | _ => None end
    | None => None
    end
  end.
(** JSError(message=None, *, name="Error", stack=None, cause=None): a missing message is "" *)
Definition str_or_none (v : val) : option (option (list N)) :=
  match v with VStr s => Some (Some s) | VNone => Some None | _ => None end.
Definition keyword_arg (n : string) (kw : list (list N * val)) (default : val) : val :=
  match dget listN_eqb (chars n) kw with Some v => v | None => default end.
Definition new_error (pos : list pv) (kw : list (list N * val)) : option obj :=
  if forallb (fun p => existsb (listN_eqb (fst p)) [chars "name"; chars "stack"; chars "cause"]) kw then
    match match pos with [] => Some VNone | [PV m] => Some m | _ => None end with
    | None => None
    | Some m =>
        match str_or_none m, keyword_arg "name" kw (VStr (chars "Error")), str_or_none (keyword_arg "stack" kw VNone) with
        | Some m, VStr n, Some s => Some (OError n (Some (match m with Some m => m | None => [] end)) s (keyword_arg "cause" kw VNone))
        | _, _, _ => None
        end
    end
  else None.
Definition construct (H : heap) (f : list N) (pos : list pv) (kw : list (list N * val)) : option obj :=
  if listN_eqb f (chars "JSObject") then option_map OObject (new_object pos kw)
  else if listN_eqb f (chars "JSArray") then option_map OArray (new_array pos kw)
  else if listN_eqb f (chars "JSMap") then option_map OMap (new_map H pos kw)
  else if listN_eqb f (chars "JSSet") then option_map OSet (new_set H pos kw)
  else if listN_eqb f (chars "JSError") then new_error pos kw
  else None.
(** The names in scope *)
Definition name_value (n : list N) : option val :=
  if listN_eqb n (chars "None") then Some VNone
  else if listN_eqb n (chars "True") then Some (VBool true)
  else if listN_eqb n (chars "False") then Some (VBool false)
  else if listN_eqb n (chars "JSHole") then Some VHole
  else if listN_eqb n (chars "JSUndefined") then Some VUndef
  else None.

(** Evaluation allocates new objects at the end of the heap. *)
Definition E (A : Type) : Type := heap -> option (A * heap).
Definition e_ret {A} (x : A) : E A := fun H => Some (x, H).
Definition e_bind {A B} (m : E A) (f : A -> E B) : E B := fun H => match m H with Some (x, H) => f x H | None => None end.
Section Each.
Context {A B : Type} (f : A -> E B).
Fixpoint e_each (l : list A) : E (list B) :=
  match l with [] => e_ret [] | x :: l => e_bind (f x) (fun y => e_bind (e_each l) (fun r => e_ret (y :: r))) end.
End Each.
(** Evaluated arguments *)
Inductive av : Type := VPos (x : pv) | VKeys (l : list (list N * pv)).
Definition star_keys (l : list (val * pv)) : option (list (list N * pv)) :=
  all_some (map (fun p => match fst p with VStr s => Some (s, snd p) | _ => None end) l).
Fixpoint positional (l : list av) : list pv := match l with [] => [] | VPos x :: l => x :: positional l | _ :: l => positional l end.
Fixpoint keyed (l : list av) : list (list N * pv) := match l with [] => [] | VKeys k :: l => k ++ keyed l | _ :: l => keyed l end.
Fixpoint eval (e : expr) : E pv :=
  match e with
  | ELit v => e_ret (PV v)
  | EName n => fun H => match name_value n with Some v => Some (PV v, H) | None => None end
  | EList l => e_bind (e_each eval l) (fun l => e_ret (PList l))
  | ETuple l => e_bind (e_each eval l) (fun l => e_ret (PTuple l))
  | EDict l =>
      e_bind (e_each (fun p => e_bind (eval (fst p)) (fun k => e_bind (eval (snd p)) (fun v => e_ret (k, v)))) l)
        (fun ps H => match dict_display H ps [] with Some l => Some (PDict l, H) | None => None end)
  | ECall f args =>
      e_bind (e_each (fun a => e_bind (eval (snd a)) (fun x H =>
          match fst a, x with
          | APos, _ => Some (VPos x, H)
          | AKey n, _ => Some (VKeys [(n, x)], H)
          | AStar, PDict l => match star_keys l with Some k => Some (VKeys k, H) | None => None end
          | AStar, _ => None
          end)) args)
        (fun avs H =>
           match keywords (keyed avs) [] with
           | Some kw => match construct H f (positional avs) kw with Some x => Some (PV (VRef (List.length H)), H ++ [x]) | None => None end
           | None => None
           end)
  end.
End Eval.

(** * Copies *)
(** The elements of an array, a hole as JSHole *)
Definition elems (a : arr val) : list val := map (fun e => match e with Some v => v | None => VHole end) (aabs a).
(** [w] is built like [v]: objects of the same class with copies of the same parts in the same order, and the same leaves. *)
Inductive copy (G : heap) : val -> val -> Prop :=
| cp_leaf v : (forall o, v <> VRef o) -> copy G v v
| cp_object a b x y : nth_error G a = Some (OObject x) -> nth_error G b = Some (OObject y) ->
    Forall2 (copy G) (elems (jo_arr x)) (elems (jo_arr y)) ->
    map fst (jo_props x) = map fst (jo_props y) -> Forall2 (copy G) (map snd (jo_props x)) (map snd (jo_props y)) -> copy G (VRef a) (VRef b)
| cp_array a b x y : nth_error G a = Some (OArray x) -> nth_error G b = Some (OArray y) ->
    Forall2 (copy G) (elems (jo_arr x)) (elems (jo_arr y)) ->
    map fst (jo_props x) = map fst (jo_props y) -> Forall2 (copy G) (map snd (jo_props x)) (map snd (jo_props y)) -> copy G (VRef a) (VRef b)
| cp_map a b m m' : nth_error G a = Some (OMap m) -> nth_error G b = Some (OMap m') ->
    Forall2 (copy G) (map fst (map snd m)) (map fst (map snd m')) -> Forall2 (copy G) (map snd (map snd m)) (map snd (map snd m')) ->
    copy G (VRef a) (VRef b)
| cp_set a b m m' : nth_error G a = Some (OSet m) -> nth_error G b = Some (OSet m') ->
    Forall2 (copy G) (map snd m) (map snd m') -> copy G (VRef a) (VRef b)
| cp_error a b n m s c c' : nth_error G a = Some (OError n m s c) -> nth_error G b = Some (OError n m s c') ->
    copy G c c' -> copy G (VRef a) (VRef b).

(** * Values whose repr shows all of them *)
Section Shown.
Variable H : heap.
Variable R : rsettings.
Variable isidentifier : list N -> bool.
Variable whole : val -> bool.
Variable is_enum : nat -> bool.
Variable keyword : list N -> bool.
Variable nfkc : list N -> list N.
Variable float_repr : N -> list N.
(** A name that means itself in source text *)
Definition plain_name (n : list N) : Prop := keyword n = false /\ nfkc n = n.
Definition shown_leaf (v : val) : Prop :=
  match v with
  | VInt _ | VStr _ => whole v = true
  | VFloat b => exists m e, ieee b = Finite m e
  | VRef _ => False
  | _ => True
  end.
(** Property names are distinct and not array indexes; those that can be keyword arguments are plain. *)
Definition shown_names (l : list (list N)) : Prop :=
  NoDup l /\ Forall (fun n => normalise_property_key float_repr (KStr n) = Ok (PStr n)) l /\
  (forallb isidentifier l = true -> Forall plain_name l).
Definition ends_in_element (l : list (option val)) : Prop := forall d, l <> [] -> last l d <> None.
Definition shown_node (P : val -> Prop) (o : nat) (x : obj) : Prop :=
  (forall v, holds x v -> P v) /\
  match x with
  | OObject x => arr_ok (jo_arr x) /\ shown_names (map fst (jo_props x)) /\ (jo_len x <= r_maxjsobject R)%Z /\ ~ holds (OObject x) VHole /\
      ends_in_element (aabs (jo_arr x)) /\ (zlen (aabs (jo_arr x)) <= 2 ^ 32 - 1)%Z
  | OArray x => arr_ok (jo_arr x) /\ shown_names (map fst (jo_props x)) /\ (jo_len x <= r_maxjsarray R)%Z /\ ~ holds (OArray x) VHole /\
      match jo_arr x with
      | ASparse _ => ends_in_element (aabs (jo_arr x))
      | ADense d => (zlen (d_items d) + zlen (jo_props x) <= r_maxjsarray R)%Z /\ (jo_len x = 0%Z -> d_items d = []) /\ (In None (d_items d) -> P VHole)
      end
  | OMap m => (exists ops tr, jm_ops (heap_bytes H) [] ops = (tr, m)) /\ (jm_len m <= r_maxdict R)%Z
  | OSet m => (exists ops tr, js_ops (heap_bytes H) [] ops = (tr, m)) /\ (js_len m <= r_maxset R)%Z
  | OError n m s _ => m <> None /\ is_enum o = false /\ P (VStr n) /\ (forall t, m = Some t \/ s = Some t -> P (VStr t))
  | _ => False
  end.
(** Everything in the value is shown, at most [level] deep; [above] are the objects it is in: no object is inside itself. *)
Fixpoint shown (level : nat) (above : list nat) (v : val) : Prop :=
  match level with
  | O => False
  | S level =>
      match v with
      | VRef o => ~ In o above /\ exists x, nth_error H o = Some x /\ shown_node (shown level (o :: above)) o x
      | _ => shown_leaf v
      end
  end.
End Shown.
