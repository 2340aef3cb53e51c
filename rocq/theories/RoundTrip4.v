(** Decoding what was encoded. *)
From Coq Require Import List NArith ZArith Bool Lia ZifyBool ZifyNat ZifyN.
From Verif Require Import Base Dict ModelTags ModelPrim SpecPrim PrimFacts SpecNumber ModelLog ModelArray ModelValue KeyFacts SpecKey SpecMap
  ModelObject ModelMap MapFacts ModelBuffer BufferFacts ModelHeap ModelDecode SpecWire SpecBuild DecodeComplete ModelEncode SpecEncode SpecFail HashFacts
  EncodeFacts EncodeFacts2 EncodeFacts3 SpecGraph RoundTrip RoundTrip2 RoundTrip3.
Import ListNotations.
Open Scope N_scope.

Lemma NoDup_fun (R : list (nat * val)) : NoDup (map fst R) -> forall o u u', In (o, u) R -> In (o, u') R -> u = u'.
Proof.
  induction R as [|[p w] R IH]; intros N o u u' A B; [contradiction|]. cbn [map fst] in N. inversion N as [|? ? N1 N2]; subst.
  destruct A as [A|A], B as [B|B]; try congruence; eauto.
  - injection A as -> ->. elim N1. apply (in_map fst) in B. exact B.
  - injection B as -> ->. elim N1. apply (in_map fst) in A. exact A.
Qed.
Definition apart_locs (R : nat -> val -> Prop) : Prop := forall o o' j, R o (VRef j) -> R o' (VRef j) -> o = o'.

Section Final.
Variable H : heap.
Variable cfg : ecfg.
Variable dcfg : ModelDecode.dcfg.
Variables refs node : bool.
Variable root : val.
Hypothesis WF : wf_graph H cfg root.
Hypothesis DC : forall t, c_const dcfg t = default_const t.
Hypothesis DH : node = true -> c_host dcfg = true.
Notation occ := (occurs H root).

Section Any.
Variable rep : val -> val -> Prop.
Hypothesis AB : able H cfg dcfg node rep root.
Hypothesis AL : refs = true -> aligned H root.
Hypothesis RepRefl : forall v, rep v v.
Hypothesis RepOcc : forall v v0, occ v -> rep v v0 -> occ v0.
Hypothesis RepPrim : forall v v0, rep v v0 -> simple_key v -> v0 = v.
Hypothesis RepHole : forall v, rep v VHole -> v = VHole.
Hypothesis RepBuf : forall b v0 y, rep (VRef b) v0 -> nth_error H b = Some y -> buffer_like y ->
  exists b0 y0, v0 = VRef b0 /\ nth_error H b0 = Some y0 /\ buffer_like y0 /\
    (y0 = y \/ exists j j0, y = OBuffer j /\ y0 = OBuffer j0 /\ jb_data j0 = jb_data j /\ jb_max j0 = jb_max j /\ jb_resizable j0 = jb_resizable j).
Theorem loads_described w r bs : describes H cfg refs node rep [] false root [] w r -> document w bs ->
  exists v' h R, loads dcfg bs = Ok (v', h) /\ carries H h cfg dcfg node rep root v' (rel R) /\ apart_locs (rel R) /\
    (refs = true -> node = false -> map fst R = r) /\ (forall o u, In (o, u) R -> occ (VRef o)).
Proof.
  intros D Dc.
  assert (I0 : inv H cfg dcfg refs node root rep [] ds_empty [] []).
  { split; cbn; auto; try constructor; auto; try contradiction. all: try (intros x []; contradiction). all: intros j [[]|[]]. }
  destruct (proj1 (trip H cfg dcfg refs node root rep WF AB AL DC DH RepRefl RepOcc RepPrim RepHole RepBuf) _ _ _ _ _ _ D eq_refl (occ_root _ _) _ _ _ I0)
    as (v' & st & R & B & M & _ & I).
  exists v', (ds_heap st), R. split; [|split; [|split; [|split]]].
  - unfold loads. pose proof (loads_complete dcfg w bs [] v' st Dc B) as E. rewrite app_nil_r in E. rewrite E; auto. intros _. discriminate.
  - split; auto. intros o u Q. destruct (i_all _ _ _ _ _ _ _ _ _ _ _ I _ _ Q) as (x & O & Hx & [(j & _ & [] & _)|[_ C]]).
    exists x. split; auto. apply C. apply agree_refl.
  - intros o o' j A B'. eapply locs_inj; eauto. apply (i_nd _ _ _ _ _ _ _ _ _ _ _ I).
  - intros Rt Nd. apply (i_dom _ _ _ _ _ _ _ _ _ _ _ I); auto.
  - intros o u Q. destruct (i_all _ _ _ _ _ _ _ _ _ _ _ I _ _ Q) as (x & O & _). auto.
Qed.
End Any.

(** * The encoder's choices of representatives *)
Lemma eq_buf b v0 y : VRef b = v0 -> nth_error H b = Some y -> buffer_like y ->
  exists b0 y0, v0 = VRef b0 /\ nth_error H b0 = Some y0 /\ buffer_like y0 /\
    (y0 = y \/ exists j j0, y = OBuffer j /\ y0 = OBuffer j0 /\ jb_data j0 = jb_data j /\ jb_max j0 = jb_max j /\ jb_resizable j0 = jb_resizable j).
Proof. intros <- E B. exists b, y. auto. Qed.
Lemma equal_hole v : equal_value H root v VHole -> v = VHole.
Proof.
  intros [->|(N & E & _)]; auto. pose proof (hash_key_eq H v VHole N E) as Q. destruct v; auto; try discriminate.
  - destruct Q as (? & Q & _). discriminate.
  - destruct Q. discriminate.
Qed.
Lemma equal_buf b v0 y : equal_value H root (VRef b) v0 -> nth_error H b = Some y -> buffer_like y ->
  exists b0 y0, v0 = VRef b0 /\ nth_error H b0 = Some y0 /\ buffer_like y0 /\
    (y0 = y \/ exists j j0, y = OBuffer j /\ y0 = OBuffer j0 /\ jb_data j0 = jb_data j /\ jb_max j0 = jb_max j /\ jb_resizable j0 = jb_resizable j).
Proof.
  intros [<-|(N & E & _)] Hy B; [exists b, y; auto|]. destruct (hash_key_eq H _ _ N E) as [b0 ->].
  pose proof (hash_key_buffer H b b0 y N E Hy) as Q. exists b0. destruct y; try contradiction;
    try (eexists; split; [reflexivity|]; split; [exact Q|]; split; [exact Logic.I|left; reflexivity]).
  destruct Q as (j0 & Q & Q1 & Q2 & Q3 & _). exists (OBuffer j0). split; auto. split; auto. split; [exact I|]. right. exists b1, j0. auto.
Qed.

Lemma describes_eq w r : no_equals H root -> describes H cfg refs node (rep_of H refs root) [] false root [] w r ->
  describes H cfg refs node eq [] false root [] w r.
Proof.
  intros NE D. assert (Sub : forall v v0, occ v -> rep_of H refs root v v0 -> v = v0).
  { intros v v0 O. unfold rep_of. destruct refs; auto. intros [E|(A & B & C)]; auto. }
  apply (proj1 (describes_rep H cfg refs node root (rep_of H refs root) eq Sub (rep_occ H refs root)) _ _ _ _ _ _ D). constructor.
Qed.
Theorem sized_round_trip_eq size depth bs : able H cfg dcfg node eq root -> (refs = true -> aligned H root) -> (refs = true -> no_equals H root) ->
  encode_sized size depth (steps_of H cfg refs node) root = Ok bs ->
  exists v' h R, loads dcfg bs = Ok (v', h) /\ carries H h cfg dcfg node eq root v' (rel R) /\ apart_locs (rel R) /\
    (refs = true -> node = false -> one_to_one (rel R)) /\ (forall o u, rel R o u -> occ (VRef o)).
Proof.
  intros AB AL NE E. destruct (sized_describes H cfg refs node root WF size depth bs E) as (w & r & D & Dc).
  assert (D' : describes H cfg refs node eq [] false root [] w r).
  { assert (Hr : refs = true \/ refs = false) by (destruct refs; auto). destruct Hr as [Hr|Hr].
    - apply describes_eq; auto.
    - unfold rep_of in D. rewrite Hr in *. exact D. }
  destruct (loads_described eq AB AL) with (w := w) (r := r) (bs := bs) as (v' & h & R & L & C & A & Dm & Oc); auto.
  { congruence. } { apply eq_buf. }
  exists v', h, R. split; auto. split; auto. split; auto. split; auto. intros Rt Nd. split; [|exact A]. apply NoDup_fun. rewrite (Dm Rt Nd).
  apply (proj1 (describes_NoDup H cfg refs node root WF Rt) _ _ _ _ _ _ D); constructor.
Qed.
Theorem round_trip_eq depth bs : able H cfg dcfg node eq root -> (refs = true -> aligned H root) -> (refs = true -> no_equals H root) ->
  dumps_depth depth (steps_of H cfg refs node) root = Ok bs ->
  exists v' h R, loads dcfg bs = Ok (v', h) /\ carries H h cfg dcfg node eq root v' (rel R) /\ apart_locs (rel R) /\
    (refs = true -> node = false -> one_to_one (rel R)) /\ (forall o u, rel R o u -> occ (VRef o)).
Proof. exact (sized_round_trip_eq None depth bs). Qed.
Theorem sized_round_trip_equal size depth bs : refs = true -> able H cfg dcfg node (equal_value H root) root -> aligned H root ->
  encode_sized size depth (steps_of H cfg refs node) root = Ok bs ->
  exists v' h R, loads dcfg bs = Ok (v', h) /\ carries H h cfg dcfg node (equal_value H root) root v' (rel R) /\ apart_locs (rel R) /\
    (node = false -> one_to_one (rel R)) /\ (forall o u, rel R o u -> occ (VRef o)).
Proof.
  intros Rt AB AL E. destruct (sized_describes H cfg refs node root WF size depth bs E) as (w & r & D & Dc).
  assert (RE : rep_of H refs root = equal_value H root) by (unfold rep_of; rewrite Rt; auto).
  pose proof D as D'. rewrite RE in D'.
  destruct (loads_described (equal_value H root) AB (fun _ => AL)) with (w := w) (r := r) (bs := bs) as (v' & h & R & L & C & A & Dm & Oc); auto.
  { intros v. left. auto. }
  { rewrite <- RE. apply rep_occ. }
  { rewrite <- RE. apply rep_prim. }
  { apply equal_hole. } { apply equal_buf. }
  exists v', h, R. split; auto. split; auto. split; auto. split; auto. intros Nd. split; [|exact A]. apply NoDup_fun. rewrite (Dm Rt Nd).
  apply (proj1 (describes_NoDup H cfg refs node root WF Rt) _ _ _ _ _ _ D); constructor.
Qed.
Theorem round_trip_equal depth bs : refs = true -> able H cfg dcfg node (equal_value H root) root -> aligned H root ->
  dumps_depth depth (steps_of H cfg refs node) root = Ok bs ->
  exists v' h R, loads dcfg bs = Ok (v', h) /\ carries H h cfg dcfg node (equal_value H root) root v' (rel R) /\ apart_locs (rel R) /\
    (node = false -> one_to_one (rel R)) /\ (forall o u, rel R o u -> occ (VRef o)).
Proof. exact (sized_round_trip_equal None depth bs). Qed.
End Final.
