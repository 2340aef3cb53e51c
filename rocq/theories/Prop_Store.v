(** C71: the memory of what loads returns is linear in the data. *)
From Coq Require Import List NArith ZArith Bool Lia ZifyBool ZifyNat ZifyN.
From Verif Require Import Base Dict SpecPrim ModelArray ModelValue SpecObject ModelObject ModelHeap ModelDecode SpecWire SpecBuild
  DecodeFacts DecodeSound BuildFacts SpecStore StoreFacts StoreText Prop_Decode.
Import ListNotations.
Open Scope nat_scope.

(** A graph that loads returns has at most four cells for every byte read, whatever counts,
    lengths and indexes the data declares. *)
Theorem C71_cells : forall cfg data v p h,
  bytes_ok data -> loads_at cfg data = Ok (v, p, h) -> cells h <= 4 * p /\ p <= length data.
Proof.
  intros cfg data v p h B E. destruct (loads_sound _ _ _ _ _ B E) as [w [bs [rest [l [D [P [W M]]]]]]].
  destruct W as [version [tb [vb [body [_ [_ [_ [W ->]]]]]]]].
  destruct (proj1 (wire_cells version) _ _ W) as [X _]. pose proof (proj1 (build_cells cfg) _ _ _ _ M) as Y.
  change (cells h <= 0 + wc w) in Y. subst data. rewrite !app_length in *. lia.
Qed.
Print Assumptions C71_cells.

(** The strings and ints of the graph are among a list of values whose characters and bytes
    are together at most 35 for every byte of data. (35: the nine bytes of a double such as
    1e308, used as a property key, become a name of 309 digits.) repr() of a float has at most
    24 characters. *)
Theorem C71_text : forall cfg data v p h,
  bytes_ok data -> (lenN data < 2 ^ 32)%N ->
  (forall t, sized (c_const cfg t) = false) -> (forall b, length (c_float_repr cfg b) <= 24) ->
  loads_at cfg data = Ok (v, p, h) ->
  exists pool, total_text pool <= 35 * p /\
    (forall x, held h x -> In x pool) /\ (sized v = true -> In v pool).
Proof.
  intros cfg data v p h B L K FR E. destruct (loads_sound _ _ _ _ _ B E) as [w [bs [rest [l [D [P [W M]]]]]]].
  destruct W as [version [tb [vb [body [_ [T [V [W ->]]]]]]]].
  exists (pool cfg w). rewrite !app_length in P. split.
  { pose proof (proj1 (wire_pool cfg FR version) _ _ W). lia. }
  destruct (proj1 (build_pool cfg K (fun x => In x (pool cfg w)) version) _ _ W ds_empty v (mkD h l)) as [[F1 _] F2].
  - unfold lenN in *. apply tagged_length in T. subst data. rewrite !app_length in L. lia.
  - apply Forall_forall. auto.
  - split; constructor.
  - exact M.
  - split; [|exact F2]. intros x [S1 [o [O1 X]]]. cbn [ds_heap] in F1. rewrite Forall_forall in F1. exact (F1 o O1 x X S1).
Qed.
Print Assumptions C71_text.

(** A JSObject or JSArray used as a mapping: however large the indexes, and whatever is
    deleted, popped or iterated in between, it has at most four cells for every assignment,
    and fifteen more. *)
Theorem C71_mapping_cells : forall (T : Type) float_repr (ops : list (mop T)),
  jo_cells (snd (jo_ops float_repr jo_empty ops)) <= 15 + 4 * assignments ops.
Proof.
  intros T fr ops. destruct (jo_ops fr jo_empty ops) as [tr o] eqn:E. cbn [snd].
  apply filled_cells. pose proof (filled_ops fr ops _ _ _ _ filled_empty E) as F. rewrite Nat.add_0_r in F. exact F.
Qed.
Print Assumptions C71_mapping_cells.

(** A sparse array that says its length is 2^32 - 1, with one element at 2^32 - 2: four
    cells, one of them the array. Four holes: five cells. *)
Definition ex_sparse : bytes := [255;15;97;255;255;255;255;15;85;254;255;255;255;15;48;64;1;255;255;255;255;15]%N.
Definition ex_holes : bytes := [255;15;65;4;45;45;45;45;36;0;4]%N.
Example C71_example :
  (exists h o, loads_at ex_cfg ex_sparse = Ok (VRef 0, 22, h) /\ h = [OArray o] /\
     arr_len (jo_arr o) = (2 ^ 32 - 1)%Z /\ cells h = 4) /\
  (exists h, loads_at ex_cfg ex_holes = Ok (VRef 0, 11, h) /\ cells h = 5).
Proof.
  split.
  - eexists _, _. split; [vm_compute; reflexivity|]. split; [reflexivity|]. split; reflexivity.
  - eexists. split; [vm_compute; reflexivity|]. reflexivity.
Qed.
(** The hypotheses of C71_text, and a graph that holds "a" twice, once as a property name, and 1. *)
Example C71_text_example :
  (forall t, sized (c_const ex_cfg t) = false) /\ (forall b, length (c_float_repr ex_cfg b) <= 24) /\
  exists h, loads_at ex_cfg [255;15;111;34;1;97;34;1;97;34;1;98;73;2;123;2]%N = Ok (VRef 0, 16, h) /\
    held h (VStr [97%N]) /\ held h (VInt 1).
Proof.
  split; [intros []; reflexivity|]. split; [intros b; cbn; lia|]. eexists. split; [vm_compute; reflexivity|].
  split; (split; [reflexivity|]); eexists; (split; [left; reflexivity|]); vm_compute; auto.
Qed.
(** Assigning at 0, then at 4294967290, then deleting it: at most 27 cells; here two. *)
Example C71_mapping_example :
  jo_cells (snd (jo_ops (T := nat) (fun _ => []) jo_empty [MSet (KInt 0) (Some 7); MSet (KInt 4294967290) (Some 8); MDel (KInt 4294967290); MIter])) = 3.
Proof. vm_compute. reflexivity. Qed.
