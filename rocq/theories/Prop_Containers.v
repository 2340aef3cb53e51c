(** C75: loads with other container types. *)
From Coq Require Import List Arith NArith ZArith Bool.
From Verif Require Import Base Dict SpecNumber ModelTags ModelPrim ModelValue ModelObject ModelMap ModelBuffer ModelHeap ModelDecode ModelEncode SpecContents ModelContainers SpecContainers
  ContainersFacts ContainersFacts2 ContainersFacts3 Prop_Decode.
Import ListNotations.
Open Scope N_scope.

(** Without the options the result is that of loads, for all data, errors included. *)
Theorem C75_default : forall cfg data, loads_types default_types cfg data = loads cfg data.
Proof. exact loads_default. Qed.
Print Assumptions C75_default.

(** Data that loads accepts is accepted with other container types, unless it has an object that they cannot hold.
    The result is the same graph of objects: the same value, made of as many objects with the same references
    between them, each the one of the default types or the container that takes its place. *)
Theorem C75_loads_partial : forall T cfg data v h, scalar_constants cfg -> repr_by_value cfg -> loads cfg data = Ok (v, h) ->
  (forall x, In x h -> ~ impossible T h x) ->
  exists h', loads_types T cfg data = Ok (v, h') /\ Forall2 (in_place_of T cfg h) h h'.
Proof.
  intros T cfg data v h Cs Rp E P. destruct (loads_types_sim T cfg Cs data v h E) as [G [(h' & E' & F)|(_ & x & J & U)]].
  - exists h'. split; auto. clear E E'.
    assert (Q : forall l l', Forall2 (crel T cfg h) l l' -> Forall2 (in_place_of T cfg h) l l').
    { induction 1; constructor; auto. apply crel_in_place; auto. }
    auto.
  - exfalso. apply (P x J). apply unusable_impossible; auto.
Qed.
Print Assumptions C75_loads_partial.
(** With such an object it raises TypeError. *)
Theorem C75_raises : forall T cfg data v h x, scalar_constants cfg -> loads cfg data = Ok (v, h) -> In x h -> impossible T h x ->
  loads_types T cfg data = Err EType.
Proof.
  intros T cfg data v h x Cs E J I. destruct (loads_types_sim T cfg Cs data v h E) as [G [(h' & _ & F)|(E' & _)]]; auto. exfalso.
  clear E. assert (Q : forall l l', Forall2 (crel T cfg h) l l' -> In x l -> exists x', crel T cfg h x x').
  { induction 1; intros []; [subst|]; eauto. }
  destruct (Q _ _ F J) as [x' C]. exact (crel_possible T cfg h G x x' C I).
Qed.
Print Assumptions C75_raises.

(** With dict for Maps, objects and arrays, what is returned is made of dicts: no JSMap, JSObject or JSArray is left. *)
Theorem C75_plain : forall T cfg data v h v' h', scalar_constants cfg -> repr_by_value cfg -> loads cfg data = Ok (v, h) ->
  t_map T = true -> t_object T = true -> t_array T = true -> loads_types T cfg data = Ok (v', h') ->
  forall x, In x h' -> match x with OMap _ | OObject _ | OArray _ => False | _ => True end.
Proof.
  intros T cfg data v h v' h' Cs Rp E Tm To Ta E' x J.
  assert (P : forall y, In y h -> ~ impossible T h y).
  { intros y Jy I. pose proof (C75_raises T cfg data v h y Cs E Jy I) as R. congruence. }
  destruct (C75_loads_partial T cfg data v h Cs Rp E P) as (h2 & E2 & F). rewrite E2 in E'. injection E' as <- <-.
  assert (Q : forall l l', Forall2 (in_place_of T cfg h) l l' -> In x l' -> exists y, in_place_of T cfg h y x) by (induction 1; intros []; [subst|]; eauto).
  destruct (Q _ _ F J) as [y R].
  destruct y; cbn [in_place_of] in R; rewrite ?Tm, ?To, ?Ta in R; try (subst x; exact Logic.I); try (destruct R as (d & -> & _); exact Logic.I).
  destruct (t_error T); [destruct R as (m0 & _ & ->)|subst x]; exact Logic.I.
Qed.
Print Assumptions C75_plain.

(** * The full statement is false *)
(** The documentation of loads describes jsset_type as a function returning an empty set. With set itself all data
    with a Set in it, even an empty one, raises TypeError. *)
Theorem C75_set_refuted : forall T cfg data v h m, scalar_constants cfg -> t_set T = true -> loads cfg data = Ok (v, h) -> In (OSet m) h ->
  loads_types T cfg data = Err EType.
Proof. intros T cfg data v h m Cs Et E J. exact (C75_raises T cfg data v h _ Cs E J Et). Qed.
Print Assumptions C75_set_refuted.
Definition ex_dict : types := mkTypes true false true true true.
Definition ex_set : types := mkTypes false true false false false.
(** new Map([[1, "a"], [true, "b"]]) has one entry as a dict. *)
Definition ex_map_data : bytes := [255;15;59;73;2;34;1;97;84;34;1;98;58;4].
Theorem C75_keys_refuted : exists m k k' d, loads ex_cfg ex_map_data = Ok (VRef 0%nat, [OMap m]) /\ length m = 2%nat /\ In k (map fst (map snd m)) /\ In k' (map fst (map snd m)) /\ k <> k' /\
  loads_types ex_dict ex_cfg ex_map_data = Ok (VRef 0%nat, [ODict d]) /\ d = [(k, VStr [98])].
Proof.
  do 4 eexists. split; [vm_compute; reflexivity|]. split; [reflexivity|]. split; [left; reflexivity|]. split; [right; left; reflexivity|]. split; [discriminate|].
  split; [vm_compute; reflexivity|reflexivity].
Qed.
Print Assumptions C75_keys_refuted.
(** An array whose last element is a hole gets a key for that hole and for no other. *)
Definition ex_sparse_data : bytes := [255;15;97;5;73;0;73;14;64;1;5].
Theorem C75_last_hole_refuted : exists o, loads ex_cfg ex_sparse_data = Ok (VRef 0%nat, [OArray o]) /\
  map (fun i => jo_get o (PInt i)) [0; 1; 2; 3; 4]%Z = [Ok (VInt 7); Err EKey; Err EKey; Err EKey; Err EKey] /\
  loads_types ex_dict ex_cfg ex_sparse_data = Ok (VRef 0%nat, [ODict [(VInt 4, VHole); (VInt 0, VInt 7)]]).
Proof. eexists. split; [vm_compute; reflexivity|]. split; vm_compute; reflexivity. Qed.
Print Assumptions C75_last_hole_refuted.

(** * Cases *)
Lemma ex_scalar : scalar_constants ex_cfg.
Proof. intros [] o; discriminate. Qed.
Lemma ex_repr : repr_by_value ex_cfg.
Proof. intros a b _ _. reflexivity. Qed.
(** {a: new Map([[1, x], ["k", x]]), b: new Map()} with x = [7], and an Error without a message *)
Definition ex_graph_data : bytes := [255;15;111;34;1;97;59;73;2;65;1;73;14;36;0;1;34;1;107;94;2;58;4;34;1;98;59;58;0;34;1;101;114;46;123;3].
Example C75_example : exists v h h', loads ex_cfg ex_graph_data = Ok (v, h) /\ (forall x, In x h -> ~ impossible ex_dict h x) /\
  loads_types ex_dict ex_cfg ex_graph_data = Ok (v, h') /\
  h' = [ODict [(VStr [97], VRef 1%nat); (VStr [98], VRef 3%nat); (VStr [101], VRef 4%nat)]; ODict [(VInt 1, VRef 2%nat); (VStr [107], VRef 2%nat)];
        ODict [(VInt 0, VInt 7)]; ODict []; OError [69; 114; 114; 111; 114] None None VNone].
Proof.
  do 3 eexists. split; [vm_compute; reflexivity|]. split.
  - intros x [<-|[<-|[<-|[<-|[<-|[]]]]]]; cbn [impossible]; try (intros []; fail).
    + intros (_ & k & v & [J|[J|[]]] & o & y & E & _); subst k; discriminate.
    + intros (_ & k & v & [] & _).
  - split; vm_compute; reflexivity.
Qed.
(** A Map with an array as a key *)
Example C75_raises_example : exists v h x, loads ex_cfg [255;15;59;65;0;36;0;0;48;58;2] = Ok (v, h) /\ In x h /\ impossible ex_dict h x /\
  loads_types ex_dict ex_cfg [255;15;59;65;0;36;0;0;48;58;2] = Err EType.
Proof.
  do 3 eexists. split; [vm_compute; reflexivity|]. split; [left; reflexivity|]. split; [|vm_compute; reflexivity].
  split; [reflexivity|]. do 2 eexists. split; [left; reflexivity|]. do 2 eexists. split; [reflexivity|]. split; [reflexivity|exact Logic.I].
Qed.
Example C75_set_example : exists v h m, loads ex_cfg [255;15;39;44;0] = Ok (v, h) /\ In (OSet m) h /\ t_set ex_set = true.
Proof. do 3 eexists. split; [vm_compute; reflexivity|]. split; [left; reflexivity|reflexivity]. Qed.
