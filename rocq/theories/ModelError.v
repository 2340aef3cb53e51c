(** JSError and JSErrorData as Python objects: /repo/src/v8serialize/jstypes/jserror.py:25-46 (_JSErrorData), 49-117 (JSErrorData),
    129-226 (JSError).

    Simplified: a cause is None, a str, another error or some other Python exception; other causes have their own [==] (ModelEq). The errors
    of one comparison form no cycle, so recursive_eq (_recursive_eq.py:11-69) only adds that an object equals itself; cycles
    are in ModelEq. Names are texts, as JSErrorName members are strs. Subclasses of the two classes are left out. *)
From Coq Require Import List NArith Bool.
From Verif Require Import Base.
Import ListNotations.

Definition text := list N.
Fixpoint text_eqb (s t : text) : bool :=
  match s, t with
  | [], [] => true
  | a :: s, b :: t => (a =? b)%N && text_eqb s t
  | _, _ => false
  end.
(** str's order: by code points *)
Fixpoint text_ltb (s t : text) : bool :=
  match s, t with
  | _, [] => false
  | [], _ :: _ => true
  | a :: s, b :: t => (a <? b)%N || ((a =? b)%N && text_ltb s t)
  end.

(** The values in play. [PError exc tb n m s c]: a JSError if [exc], with the traceback object [tb] (its identity), else a JSErrorData, which
    has no traceback. [POther o tb]: another exception, the object [o]. *)
Inductive pval : Type :=
| PNone
| PStr (s : text)
| POther (o : nat) (tb : option nat)
| PError (exc : bool) (tb : option nat) (name : text) (message stack : option text) (cause : pval).

(** JSError.__init__, jserror.py:154-169 *)
Definition jserror_new (message : option text) (name : text) (stack : option text) (cause : pval) : pval :=
  PError true None name (Some (match message with None => [] | Some m => m end)) stack cause.
(** _JSErrorData.__init__, jserror.py:35-46 *)
Definition errordata_new (message : option text) (name : text) (stack : option text) (cause : pval) : pval :=
  PError false None name message stack cause.
(** JSError.from_js_error and builder, jserror.py:180-206 *)
Definition to_jserror (e : pval) : pval :=
  match e with PError _ _ n m s c => jserror_new m n s c | x => x end.
(** JSErrorData.builder, jserror.py:101-117 *)
Definition to_errordata (e : pval) : pval :=
  match e with PError _ _ n m s c => errordata_new m n s c | x => x end.

(** What can be done to an error: assign to its attributes (JSError.message has a setter, jserror.py:176-178: [message or ""]) and raise it,
    which gives exceptions a new traceback *)
Inductive error_op : Type :=
| SetMessage (m : option text)
| SetName (n : text)
| SetStack (s : option text)
| SetCause (c : pval)
| Raise (tb : nat).
Definition error_do (e : pval) (op : error_op) : pval :=
  match e with
  | PError exc tb n m s c =>
      match op with
      | SetMessage m' => PError exc tb n (if exc then Some (match m' with None => [] | Some t => t end) else m') s c
      | SetName n' => PError exc tb n' m s c
      | SetStack s' => PError exc tb n m s' c
      | SetCause c' => PError exc tb n m s c'
      | Raise t => if exc then PError exc (Some t) n m s c else e
      end
  | x => x
  end.

(** An __eq__ method returns a bool or NotImplemented. *)
Inductive answer : Type := Yes | No | NotImpl.
Definition answer_of (b : bool) : answer := if b then Yes else No.
Definition opt_eqb {A} (eqb : A -> A -> bool) (a b : option A) : bool :=
  match a, b with None, None => true | Some x, Some y => eqb x y | _, _ => false end.
Definition is_exception (v : pval) : option (option nat) :=
  match v with POther _ tb | PError true tb _ _ _ _ => Some tb | _ => None end.
(** The methods: JSError.__eq__ (jserror.py:211-226), where every JSError is registered as a JSErrorData; the dataclass's __eq__ of
    JSErrorData, for objects of one class; str's; and object's, which is identity. [eqv] is [==] for the causes. *)
Definition eq_method (eqv : pval -> pval -> result bool) (a b : pval) : result answer :=
  match a, b with
  | PError true tb n m s c, _ =>
      if match is_exception b with Some tb' => negb (opt_eqb Nat.eqb tb tb') | None => false end then Ok No else
      match b with
      | PError _ _ n' m' s' c' =>
          if text_eqb n n' && opt_eqb text_eqb m m' && opt_eqb text_eqb s s' then bind (eqv c c') (fun b => Ok (answer_of b)) else Ok No
      | _ => Ok NotImpl
      end
  | PError false _ n m s c, PError false _ n' m' s' c' =>
      if opt_eqb text_eqb m m' && text_eqb n n' && opt_eqb text_eqb s s' then bind (eqv c c') (fun b => Ok (answer_of b)) else Ok No
  | PError false _ _ _ _ _, _ => Ok NotImpl
  | PStr s, PStr t => Ok (answer_of (text_eqb s t))
  | POther o _, POther o' _ => Ok (if Nat.eqb o o' then Yes else NotImpl)
  | PNone, PNone => Ok Yes
  | _, _ => Ok NotImpl
  end.
(** [a == b]: the method of a, then that of b with the arguments exchanged, then identity, which for None, strs and the other exceptions is
    decided above. [fuel] bounds the depth of causes. *)
Fixpoint py_eq (fuel : nat) (a b : pval) : result bool :=
  match fuel with
  | 0%nat => Err EOutOfFuel
  | S fuel =>
      bind (eq_method (py_eq fuel) a b) (fun x =>
      match x with
      | Yes => Ok true
      | No => Ok false
      | NotImpl => bind (eq_method (py_eq fuel) b a) (fun y => match y with Yes => Ok true | _ => Ok false end)
      end)
  end.

(** [a < b] and [a <= b] of JSErrorData, made by dataclass(order=True), jserror.py:26: objects of one class compare as the tuples (message, name,
    stack, cause); a tuple compares its first items that are not equal. None has no order, and a JSError none with either class. *)
Definition opt_lt (strict : bool) (a b : option text) : result bool :=
  match a, b with
  | Some x, Some y => Ok (text_ltb x y || (negb strict && text_eqb x y))
  | _, _ => Err EType
  end.
Fixpoint py_lt (fuel : nat) (strict : bool) (a b : pval) : result bool :=
  match fuel with
  | 0%nat => Err EOutOfFuel
  | S fuel =>
      match a, b with
      | PStr x, PStr y => opt_lt strict (Some x) (Some y)
      | PError false _ n m s c, PError false _ n' m' s' c' =>
          if negb (opt_eqb text_eqb m m') then opt_lt strict m m' else
          if negb (text_eqb n n') then opt_lt strict (Some n) (Some n') else
          if negb (opt_eqb text_eqb s s') then opt_lt strict s s' else
          bind (py_eq fuel c c') (fun e => if e then Ok (negb strict) else py_lt fuel strict c c')
      | _, _ => Err EType
      end
  end.
