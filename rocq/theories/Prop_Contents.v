(** C65: what the containers in decoded data contain. *)
From Coq Require Import List NArith ZArith Bool Lia ZifyBool ZifyNat ZifyN.
From Verif Require Import Base Dict ModelTags ModelPrim SpecPrim SpecArray ModelArray ModelValue SpecKey SpecObject ModelObject SpecObjectUse ModelObjectUse
  SpecMap ModelMap ModelBuffer ModelHeap SpecWire ModelDecode SpecBuild DecodeSound SpecContents ContentsFacts Prop_Decode.
Import ListNotations.
Open Scope Z_scope.

(** Every object, array, map and set that loads returns, at any depth, contains what one container in
    the document says: its entries in order, assigned to an empty object, array, map or set. *)
Theorem C65_loads : forall cfg data v p h, bytes_ok data -> loads_at cfg data = Ok (v, p, h) ->
  exists w bs rest, data = bs ++ rest /\ document w bs /\
  forall i x, nth_error h i = Some x -> container x ->
    exists c st, part c w /\ is_container c /\ i = length (ds_heap st) /\ filled cfg c st x.
Proof.
  intros cfg data v p h B E. destruct (loads_sound _ _ _ _ _ B E) as (w & bs & rest & l & D & _ & W & M).
  exists w, bs, rest. split; [exact D|]. split; [exact W|]. intros i x X C.
  destruct (proj1 (build_news cfg) w _ _ _ M) as [_ N]. destruct (N i x ltac:(cbn; lia) X C) as (c & P & IC & st & st1 & B1 & -> & B2).
  exists c, st. split; [exact P|]. split; [exact IC|]. split; [reflexivity|].
  destruct (build_filled cfg c st _ _ IC B1) as (y & _ & Y & F). cbn [ds_heap] in B2. congruence.
Qed.
Print Assumptions C65_loads.

(** The same for one container read anywhere, and it stays so: what is read later does not change it. *)
Theorem C65_container : forall cfg w st v st', is_container w -> build cfg w st = Ok (v, st') ->
  exists x, v = VRef (length (ds_heap st)) /\ nth_error (ds_heap st') (length (ds_heap st)) = Some x /\ filled cfg w st x.
Proof. exact build_filled. Qed.
Print Assumptions C65_container.
Theorem C65_stays : forall cfg w st v st' i, build cfg w st = Ok (v, st') -> (i < length (ds_heap st))%nat ->
  nth_error (ds_heap st') i = nth_error (ds_heap st) i.
Proof. intros cfg w st v st' i B L. apply (proj1 (build_news cfg) w) in B. apply B, L. Qed.
Print Assumptions C65_stays.

(** The elements of a dense array with no properties are the values in order, with holes where the
    values are JSHole. *)
Theorem C65_dense_elements : forall cfg vs st o, filled cfg (WDense vs PNil) st (OArray o) -> (vcount vs < 2 ^ 32)%N ->
  exists values st1 es, values_read cfg vs (begun (OArray jo_empty) st) values st1 /\ Forall2 as_element values es /\ shows cfg o es [].
Proof.
  intros cfg vs st o F L. inversion F as [|vs' ps' st' values st1 items st2 qs o' R1 R2 A S| | |]; subst. exists values, st1.
  inversion R2; subst. rewrite app_nil_r in A.
  assert (CL : Z.of_nat (length values) = Z.of_N (vcount vs)).
  { clear -R1. induction R1; cbn [length vcount]; lia. }
  destruct (numbered_elements cfg values 0 qs (mkUState [] [] None) A eq_refl eq_refl ltac:(cbn; lia)) as (es & X & Y & Z0).
  exists es. split; [exact R1|]. split; [exact X|]. unfold shows_result, result_of in S. cbn [fst snd] in S. rewrite Y, Z0 in S. exact S.
Qed.
Print Assumptions C65_dense_elements.

(** What showing means for listing: list(o.array) is the elements, and list(o.properties) the names. *)
Theorem C65_shown : forall cfg o l d, shows cfg o l d ->
  fst (arr_op (jo_arr o) OIter) = RIter l /\
  forall left, use_op (c_float_repr cfg) (mkUse o left) (UNamed NIter) = (RKey (MKeys (map PStr (map fst d))), mkUse o left).
Proof.
  intros cfg o l d (left & old & H). split.
  - specialize (H [UArray OIter]). cbn [use_ops use_op] in H. destruct (use_array (mkUse o left) OIter) as [r u] eqn:E.
    destruct (H _ _ eq_refl) as [_ [st' S]]. inversion S as [|? ? ? st1 ? ? X Y]; subst. unfold use_array in E. cbn [u_obj] in E.
    destruct (arr_op (jo_arr o) OIter) as [r' a]. injection E as -> <-. cbn [fst].
    destruct X as [X|X]; inversion X; subst.
    + match goal with Z : spec_op _ _ _ _ |- _ => inversion Z; subst end. reflexivity.
    + match goal with Z : sparse_deviation _ _ _ _ |- _ => inversion Z end.
  - intros left'. specialize (H [UNamed NIter]). cbn [use_ops use_op use_named u_obj] in H |- *.
    destruct (H _ _ eq_refl) as [_ [st' S]]. inversion S as [|? ? ? st1 ? ? X Y]; subst.
    destruct X as [X|X]; inversion X; subst. match goal with Z : nspec _ _ _ |- _ => inversion Z; subst end.
    cbn [named] in *. congruence.
Qed.
Print Assumptions C65_shown.

(** A length that no array can have: an array declared with 2^32 elements is decoded as an empty one. *)
Theorem C65_impossible_length : exists data h, bytes_ok data /\
  loads_at ex_cfg data = Ok (VRef 0, length data, h) /\ nth_error h 0 = Some (OArray jo_empty) /\
  exists bs, data = [255; 15; 97]%N ++ bs ++ [64; 0]%N ++ bs /\ is_varint bs (2 ^ 32).
Proof.
  exists [255; 15; 97; 128; 128; 128; 128; 16; 64; 0; 128; 128; 128; 128; 16]%N. eexists.
  split; [repeat constructor|]. split; [vm_compute; reflexivity|]. split; [vm_compute; reflexivity|].
  exists [128; 128; 128; 128; 16]%N. split; [reflexivity|].
  change (2 ^ 32)%N with (128 - 128 + 128 * (128 - 128 + 128 * (128 - 128 + 128 * (128 - 128 + 128 * 16))))%N.
  repeat (apply vi_cont; [split; [discriminate|reflexivity]|]). apply vi_last. reflexivity.
Qed.
Print Assumptions C65_impossible_length.

(** [1, <hole>] and {a: 1, b: 2, a: 3} are such data. *)
Example C65_case :
  (exists h o, loads_at ex_cfg [255;15;65;2;73;2;45;36;0;2]%N = Ok (VRef 0, 10%nat, h) /\ nth_error h 0 = Some (OArray o) /\
     fst (arr_op (jo_arr o) OIter) = RIter [Some (VInt 1); None]) /\
  (exists h o, loads_at ex_cfg [255;15;111;34;1;97;73;2;34;1;98;73;4;34;1;97;73;6;123;3]%N = Ok (VRef 0, 20%nat, h) /\
     nth_error h 0 = Some (OObject o) /\ jo_props o = [([97]%N, VInt 3); ([98]%N, VInt 2)]).
Proof. split; eexists _, _; (split; [vm_compute; reflexivity|split; vm_compute; reflexivity]). Qed.
