(** C33: as long as keys are only added, replaced and read, JSObject is the mapping in full. *)
From Coq Require Import List NArith ZArith Bool Lia Sorting.
From Verif Require Import Base Dict SpecArray ModelArray ModelValue SpecObject ModelObject KeyFacts ArrayFacts ArrayFacts2 ArrayFacts3 ObjectFacts Prop_Object.
Import ListNotations.
Open Scope Z_scope.

Section Armed.
Context {T : Type}.

(** The key cache is present, or there are enough keys for the assertions not to need it. *)
Definition armed (a : arr T) : Prop :=
  match a with ADense _ => True | ASparse s => is_some (s_sorted s) = true \/ 2 <= zlen (s_items s) end.

Lemma dset_longer (i : Z) (v : T) items : zlen items <= zlen (dset Z.eqb i v items).
Proof.
  induction items as [|[k w] items IH]; cbn [dset]; [unfold zlen; cbn; lia|].
  destruct (i =? k); unfold zlen in *; cbn [length] in *; lia.
Qed.
Lemma dset_new (i : Z) (v : T) items : dmem Z.eqb i items = false -> zlen (dset Z.eqb i v items) = zlen items + 1.
Proof.
  unfold dmem. induction items as [|[k w] items IH]; cbn [dset dget]; [reflexivity|].
  destruct (i =? k) eqn:E; [discriminate|]. intros H. apply IH in H. unfold zlen in *. cbn [length] in *. lia.
Qed.

Lemma armed_set a z (v : T) : arr_ok a -> armed a ->
  armed (snd (arr_set a z (Some v))) /\ fst (arr_set a z (Some v)) <> Err EAssert.
Proof.
  intros A AR. destruct a as [d|s].
  - cbn [arr_set lift fst snd armed]. split; [exact I|]. unfold dense_set, dense_norm.
    destruct (z <? 0); [destruct (dense_len d + z <? 0)|]; cbn [fst]; try discriminate;
      destruct (znth _ _); cbn [fst]; discriminate.
  - cbn [arr_set lift fst snd]. cbn [arr_ok] in A. unfold sparse_set. pose proof (sparse_norm_cases s z A) as C.
    destruct (sparse_norm s z) as [i|e] eqn:E; cbn [fst snd armed]; [|split; [exact AR|]].
    + assert (0 <= i) as I0. { unfold sparse_norm in E. destruct (z <? 0) eqn:Z0.
        - destruct (sparse_len s + z <? 0) eqn:Z1; [discriminate|]. injection E as <-. lia.
        - destruct (sparse_len s <=? z); [discriminate|]. injection E as <-. lia. }
      destruct (dmem Z.eqb i (s_items s)) eqn:M.
      * cbn [fst snd s_sorted s_items]. split; [|discriminate]. cbn [armed] in AR. pose proof (dset_longer i v (s_items s)). intuition lia.
      * pose proof (dset_new i v (s_items s) M) as L. destruct (sorted_assert (dset Z.eqb i v (s_items s)) (s_sorted s)) eqn:SA; cbn [negb].
        -- destruct (s_sorted s) as [l|] eqn:SS; cbn [fst snd s_sorted s_items].
           ++ destruct (last l (-1) <? i) eqn:LI; cbn [fst snd s_sorted s_items is_some]; (split; [|discriminate]); [auto|].
              right. destruct A as [N [B [MX SO]]]. rewrite SS in SO. cbn [sorted_ok] in SO.
              destruct l as [|x l]; [cbn [last] in LI; lia|]. destruct SO as [_ SO].
              assert (In x (dkeys (s_items s))) as IN by (apply SO; left; reflexivity).
              destruct (s_items s); [destruct IN|]. rewrite L. unfold zlen. cbn [length]. lia.
           ++ split; [|discriminate]. right. cbn [armed] in AR. rewrite SS in AR. destruct AR as [AR|AR]; [discriminate|]. lia.
        -- exfalso. unfold sorted_assert in SA. cbn [armed] in AR.
           destruct (zlen (dset Z.eqb i v (s_items s)) <=? 1) eqn:LE; [|discriminate]. destruct AR as [AR|AR]; [congruence|].
           pose proof (dset_longer i v (s_items s)). lia.
    + intros H. injection H as ->. unfold sparse_norm in E.
      destruct (z <? 0); [destruct (sparse_len s + z <? 0)|destruct (sparse_len s <=? z)]; discriminate.
Qed.

Lemma armed_ensure a k : armed a -> armed (snd (ensure_array_capacity a k)).
Proof.
  intros AR. unfold ensure_array_capacity. destruct (k <? arr_len a); [exact AR|].
  assert (armed (snd (arr_resize a (k + 1)))) as RS.
  { destruct a as [d|s]; cbn [arr_resize lift snd armed]; [exact I|]. unfold sparse_resize.
    destruct (_ || _); [exact AR|]. destruct (sparse_sorted s) as [l s1]. cbn [snd s_sorted is_some]. auto. }
  destruct a as [d|s]; [|exact RS]. destruct (_ && _); [|exact RS].
  destruct (view_items (ADense d)) as [[items|e] a2]; [|exact AR].
  unfold sparse_init_length. destruct (_ || _); [exact AR|].
  destruct (sparse_fill (k + 1) items []) as [its ok]. destruct ok; [|exact AR].
  cbn [snd armed s_sorted s_items]. destruct its as [|x [|y r]]; cbn [is_some]; auto. right. unfold zlen. cbn [length]. lia.
Qed.

Lemma armed_jo_set (o : jsobj T) m p v : rep o m -> armed (jo_arr o) -> pok p ->
  armed (jo_arr (snd (jo_set o p (Some v)))) /\ fst (jo_set o p (Some v)) <> Err EAssert.
Proof.
  intros [A _] AR PK. destruct p as [s|z]; cbn [jo_set fst snd jo_arr]; [split; [exact AR|discriminate]|].
  destruct (ensure_spec (jo_arr o) z A PK) as [a1 [E1 [A1 _]]].
  pose proof (armed_ensure (jo_arr o) z AR) as AR1. rewrite E1 in *. cbn [snd] in AR1.
  destruct (armed_set a1 z v A1 AR1) as [H1 H2]. destruct (arr_set a1 z (Some v)) as [r a2]. exact (conj H1 H2).
Qed.

Section Ops.
Variable float_repr : N -> list N.
Notation norm := (normalise_property_key float_repr).

Lemma armed_update ps : forall (o : jsobj T) m, rep o m -> armed (jo_arr o) -> (forall p, In p ps -> snd p <> None) ->
  armed (jo_arr (snd (jo_update float_repr o ps))) /\ fst (jo_update float_repr o ps) <> Err EAssert.
Proof.
  induction ps as [|[k [v|]] ps IH]; intros o m R AR H; cbn [jo_update].
  - split; [exact AR|discriminate].
  - destruct (norm k) as [p|e] eqn:N.
    + destruct (rep_set o m p (Some v) R (norm_pok _ _ _ N)) as [r [o' [E [R' _]]]].
      destruct (armed_jo_set o m p v R AR (norm_pok _ _ _ N)) as [H1 H2]. rewrite E in *. cbn [fst snd] in *.
      destruct r as [[]|e]; [|exact (conj H1 H2)]. apply (IH o' _ R' H1). intros q Q. apply H. right. exact Q.
    + split; [exact AR|]. cbn [fst]. intros X. injection X as ->. apply normalise_error in N as [N _]. discriminate.
  - exfalso. apply (H (k, None)); [left|]; reflexivity.
Qed.

(** The operation does not remove an integer key. *)
Definition keeps_integer_keys (op : mop T) : Prop :=
  match op with
  | MSet k v => v <> None \/ exists s, norm k = Ok (PStr s)
  | MDel k | MPop k => exists s, norm k = Ok (PStr s)
  | MUpdate ps => forall p, In p ps -> snd p <> None
  | MPopItem | MClear => False
  | _ => True
  end.

Lemma armed_op (o : jsobj T) m op : rep o m -> armed (jo_arr o) -> keeps_integer_keys op ->
  armed (jo_arr (snd (jo_op float_repr o op))) /\ fst (jo_op float_repr o op) <> MExn EAssert.
Proof.
  intros R AR K.
  assert (forall k e, norm k = Err e -> MExn e <> @MExn T EAssert) as NE.
  { intros k e N X. injection X as ->. apply normalise_error in N as [N _]. discriminate. }
  destruct op as [k|k v|k|k| | |k|k v|ps| |]; cbn [jo_op keeps_integer_keys] in *; unfold with_key;
    try (destruct (norm k) as [p|e] eqn:N; [|split; [exact AR|exact (NE k e N)]]).
  - rewrite (rep_get o m p R). cbn [val_mresp]. destruct (dget pkey_eqb p m) as [v|]; split; try exact AR; discriminate.
  - destruct v as [v|].
    + destruct (armed_jo_set o m p v R AR (norm_pok _ _ _ N)) as [H1 H2].
      destruct (jo_set o p (Some v)) as [[[]|e] o']; cbn [unit_mresp fst snd] in *; split; try exact H1; [discriminate|congruence].
    + destruct K as [K|[s K]]; [congruence|]. injection K as ->. cbn [jo_set unit_mresp fst snd jo_arr]. split; [exact AR|discriminate].
  - destruct K as [s K]. injection K as ->. cbn [jo_del]. destruct (dmem _ _ _); cbn [unit_mresp fst snd jo_arr]; split; try exact AR; discriminate.
  - unfold jo_contains. rewrite (rep_get o m p R). destruct (dget pkey_eqb p m) as [v|]; split; try exact AR; discriminate.
  - split; [exact AR|discriminate].
  - unfold jo_iter. destruct (jo_arr o) as [d|s] eqn:JA; cbn [arr_indexes].
    + split; [exact I|discriminate].
    + unfold sparse_indexes, sparse_sorted. destruct (s_sorted s) eqn:SS; cbn [fst snd jo_arr]; (split; [|discriminate]); [exact AR|left; reflexivity].
  - destruct K as [s K]. injection K as ->. unfold jo_pop. rewrite (rep_get o m (PStr s) R).
    destruct (dget pkey_eqb (PStr s) m) as [v|]; cbn [val_mresp]; [|split; [exact AR|discriminate]].
    cbn [jo_del]. destruct (dmem _ _ _); cbn [val_mresp fst snd jo_arr]; split; try exact AR; discriminate.
  - unfold jo_setdefault. rewrite (rep_get o m p R). destruct (dget pkey_eqb p m) as [w|]; [split; [exact AR|discriminate]|].
    destruct (armed_jo_set o m p v R AR (norm_pok _ _ _ N)) as [H1 H2].
    destruct (jo_set o p (Some v)) as [[[]|e] o']; cbn [val_mresp fst snd] in *; split; try exact H1; [discriminate|congruence].
  - destruct (armed_update ps o m R AR K) as [H1 H2].
    destruct (jo_update float_repr o ps) as [[[]|e] o']; cbn [unit_mresp fst snd] in *; split; try exact H1; [discriminate|congruence].
  - destruct K.
  - destruct K.
Qed.

Lemma armed_ops ops : forall (o : jsobj T) m tr o', rep o m -> armed (jo_arr o) -> Forall keeps_integer_keys ops ->
  jo_ops float_repr o ops = (tr, o') -> exists m', mspecs norm true m tr m'.
Proof.
  induction ops as [|x ops IH]; intros o m tr o' R AR F H; cbn [jo_ops] in H.
  - injection H as <- <-. exists m. constructor.
  - inversion F as [|? ? F1 F2]. subst. destruct (armed_op o m x R AR F1) as [A1 NE].
    destruct (jo_op float_repr o x) as [r o1] eqn:E1. destruct (jo_ops float_repr o1 ops) as [tr2 o2] eqn:E2.
    injection H as <- <-. destruct (jo_op_refines float_repr o m x r o1 R E1) as [m1 [R1 [S1 _]]].
    destruct (IH o1 m1 tr2 o2 R1 A1 F2 E2) as [m2 S2]. exists m2. econstructor; [|exact S2].
    left. destruct S1 as [S1|S1]; [exact S1|]. exfalso. apply NE. cbn [fst]. destruct S1; reflexivity.
Qed.
End Ops.
End Armed.

(** Every run of operations that removes no integer key (string keys may be removed) answers as the dict does. *)
Theorem C33_object_refines_dict_growing : forall T float_repr (ops : list (mop T)) trace o,
  (forall op, In op ops -> match op with
     | MSet k v => v <> None \/ exists s, normalise_property_key float_repr k = Ok (PStr s)
     | MDel k | MPop k => exists s, normalise_property_key float_repr k = Ok (PStr s)
     | MUpdate ps => forall p, In p ps -> snd p <> None
     | MPopItem | MClear => False
     | MGet _ | MContains _ | MLen | MIter | MSetDefault _ _ => True
     end) ->
  jo_ops float_repr jo_empty ops = (trace, o) ->
  exists m, mspecs (normalise_property_key float_repr) true [] trace m.
Proof.
  intros T fr ops tr o H E. apply (armed_ops fr ops jo_empty [] tr o rep_empty I); [|exact E].
  apply Forall_forall. intros op IN. specialize (H op IN). destruct op; exact H.
Qed.

(** Far apart and out of order. *)
Example C33_growing_case : fst (jo_ops (fun _ => []) jo_empty
    [MSet (KInt 5000000) (Some 1); MSet (KInt 3) (Some 2); MSet (KStr [97]%N) (Some 3); MSetDefault (KInt 70) 4;
     MIter; MDel (KStr [97]%N); MLen; MGet (KStr [55; 48]%N)]%nat) =
  [(MSet (KInt 5000000) (Some 1%nat), MUnit); (MSet (KInt 3) (Some 2%nat), MUnit); (MSet (KStr [97]%N) (Some 3%nat), MUnit);
   (MSetDefault (KInt 70) 4%nat, MVal 4%nat); (MIter, MKeys [PInt 3; PInt 70; PInt 5000000; PStr [97]%N]);
   (MDel (KStr [97]%N), MUnit); (MLen, MNum 3); (MGet (KStr [55; 48]%N), MVal 4%nat)].
Proof. vm_compute. reflexivity. Qed.

Print Assumptions C33_object_refines_dict_growing.
