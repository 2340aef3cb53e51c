(** Models of:
    - JSRegExpFlag, /repo/src/v8serialize/constants.py:241-349, and RegexFlag, _pycompat/re.py:13-24
    - the iteration over flags, _pycompat/enum.py:29-50 (before Python 3.11; later versions of Python iterate in definition
      order too, because these flags are not defined in the order of their values)
    - JSPrimitiveObject.__init__, jstypes/jsprimitiveobject.py:59-91
    Simplification: a flags value is the number of its bits. *)
From Coq Require Import List Bool Arith NArith ZArith.
From Verif Require Import Base ModelTags ModelPrim ModelValue ModelHeap.
Import ListNotations.
Open Scope N_scope.

(** * Regular expression flags *)
(** A member: its character, its value, the Python flag it stands for (None: no equivalent) *)
Record member : Type := mkMember { m_char : N; m_value : N; m_python : option N }.
(** re's values *)
Definition pASCII : N := 256. Definition pDOTALL : N := 16. Definition pIGNORECASE : N := 2. Definition pLOCALE : N := 4.
Definition pMULTILINE : N := 8. Definition pUNICODE : N := 32. Definition pVERBOSE : N := 64.
(** In definition order, constants.py:256-265, without NoFlag, which iteration never yields *)
Definition members : list member :=
  [ mkMember 100 (2 ^ 7) (Some 0)            (* d HasIndices *)
  ; mkMember 103 (2 ^ 0) (Some 0)            (* g Global *)
  ; mkMember 105 (2 ^ 1) (Some pIGNORECASE)  (* i IgnoreCase *)
  ; mkMember 108 (2 ^ 6) None                (* l Linear *)
  ; mkMember 109 (2 ^ 2) (Some pMULTILINE)   (* m Multiline *)
  ; mkMember 115 (2 ^ 5) (Some pDOTALL)      (* s DotAll *)
  ; mkMember 117 (2 ^ 4) (Some pUNICODE)     (* u Unicode *)
  ; mkMember 118 (2 ^ 8) (Some pUNICODE)     (* v UnicodeSets *)
  ; mkMember 121 (2 ^ 3) (Some 0) ].         (* y Sticky *)
Definition f_unicode : N := 2 ^ 4.
Definition set_in (flags f : N) : bool := negb (N.land flags f =? 0).
(** __iter__, _pycompat/enum.py:35-38 *)
Definition iter_flags (flags : N) : list member := filter (fun m => set_in flags (m_value m)) members.
(** _python_flag_mapping, constants.py:280-292: members with a truthy Python flag, except Unicode *)
Definition python_mapping : list (N * N) :=
  flat_map (fun m => match m_python m with
                     | Some p => if negb (p =? 0) && negb (m_value m =? f_unicode) then [(p, m_value m)] else []
                     | None => []
                     end) members.
(** RegexFlag's members in definition order, _pycompat/re.py:16-23, without NOFLAG *)
Definition python_members : list N := [pASCII; pDOTALL; pIGNORECASE; pLOCALE; pMULTILINE; pUNICODE; pVERBOSE].
(** from_python_flags, constants.py:294-306; [None]: JSRegExpV8SerializeError *)
Definition from_python_flags (p : N) : option N :=
  if set_in p pVERBOSE then None
  else Some (fold_left N.lor
    (flat_map (fun f => if set_in p f then match find (fun x => fst x =? f) python_mapping with Some (_, j) => [j] | None => [] end else []) python_members) 0).
(** canonical, constants.py:308-311 *)
Definition canonical_flags (f : N) : N := N.land f 0x1FF.
(** as_python_flags, constants.py:319-346; [None]: the value None, or the exception *)
Fixpoint python_of (l : list member) (acc : N) : option N :=
  match l with
  | [] => Some acc
  | m :: l => match m_python m with None => None | Some p => python_of l (N.lor acc p) end
  end.
Definition as_python_flags (f : N) : option N := python_of (iter_flags f) 0.
(** __str__, constants.py:348-349 *)
Definition flags_text (f : N) : list N := map m_char (iter_flags f).

(** * JSPrimitiveObject.__init__, jsprimitiveobject.py:59-91. FLOAT64_SAFE_INT_RANGE, constants.py:39. *)
Definition safe_int (z : Z) : bool := ((- (2 ^ 53 - 1) <=? z) && (z <=? 2 ^ 53 - 1))%Z.
Definition expected_tags (v : val) : option (list stag) :=
  match v with
  | VStr _ => Some [kStringObject]
  | VBool true => Some [kTrueObject]
  | VBool false => Some [kFalseObject]
  | VFloat _ => Some [kNumberObject]
  | VInt z => Some (if safe_int z then [kNumberObject; kBigIntObject] else [kBigIntObject])
  | _ => None
  end.
Definition primitive_new (v : val) (tag : option stag) : result obj :=
  match expected_tags v, tag with
  | None, _ | Some [], _ => Err EType
  | Some (t :: _), None => Ok (OPrim t v)
  | Some l, Some t => if existsb (stag_beq t) l then Ok (OPrim t v) else Err EValue
  end.
