(** The writers depend on encode_object and the next step only through what they do. *)
From Coq Require Import List NArith ZArith Bool.
From Verif Require Import Base Dict ModelTags ModelPrim ModelLog ModelArray ModelValue ModelObject ModelMap ModelBuffer ModelHeap ModelDecode ModelEncode.
Import ListNotations.
Open Scope N_scope.

Definition weq (a b : W) : Prop := forall st, a st = b st.
Lemma weq_refl a : weq a a.
Proof. intros st. reflexivity. Qed.
Lemma weq_seq a a' b b' : weq a a' -> weq b b' -> weq (w_seq a b) (w_seq a' b').
Proof. intros A B st. unfold w_seq. rewrite A. destruct (a' st) as [[x s]|e]; cbn; auto. rewrite B. reflexivity. Qed.
Lemma weq_items k k' v v' l : (forall x, weq (k x) (k' x)) -> (forall x, weq (v x) (v' x)) -> weq (w_items k v l) (w_items k' v' l).
Proof. intros K V. induction l as [|[a b] l IH]; cbn [w_items]; [apply weq_refl|]. apply weq_seq; auto. apply weq_seq; auto. Qed.
Lemma weq_values v v' l : (forall x, weq (v x) (v' x)) -> weq (w_values v l) (w_values v' l).
Proof. intros V. induction l as [|a l IH]; cbn [w_values]; [apply weq_refl|]. apply weq_seq; auto. Qed.
Lemma weq_constrained s a b : weq a b -> weq (constrained s a) (constrained s b).
Proof. intros A st. unfold constrained. rewrite A. reflexivity. Qed.
Lemma weq_acyclic o a b : weq a b -> weq (w_acyclic o a) (w_acyclic o b).
Proof. intros A st. unfold w_acyclic. destruct (log_open_acyclic _ _ _). rewrite A. reflexivity. Qed.
Lemma weq_with {A} (r : result A) f g : (forall a, weq (f a) (g a)) -> weq (w_with r f) (w_with r g).
Proof. intros F. destruct r; cbn; auto. apply weq_refl. Qed.
Ltac weqs := repeat first [assumption | apply weq_refl | apply weq_items; intros | apply weq_values; intros | apply weq_constrained | apply weq_acyclic | apply weq_seq | match goal with X : forall _, weq _ _ |- _ => apply X end].

Section Cong.
Variable H : heap.
Variable cfg : ecfg.
Lemma tagwriter_cong enc enc' next next' v : (forall u, weq (enc u) (enc' u)) -> (forall u, weq (next u) (next' u)) ->
  weq (step_tagwriter H cfg enc v next) (step_tagwriter H cfg enc' v next').
Proof.
  intros E N. unfold step_tagwriter. destruct v; try apply weq_refl. destruct (nth_error H oid) as [x|]; [|apply N]. destruct x; try apply weq_refl.
  - apply weq_with. intros l. unfold write_jsmap. weqs.
  - unfold write_jsset. weqs.
  - apply weq_with. intros l. unfold write_js_object, write_properties. weqs.
  - unfold serialize_js_array. destruct (sparse_is_smaller _); apply weq_with; intros l.
    + unfold write_sparse, write_properties. destruct (_ || _); weqs.
    + unfold write_dense. weqs.
  - unfold write_error. weqs. destruct cause; weqs; destruct (f_circular _); weqs.
  - destruct (_ && _); weqs.
  - unfold write_jsmap. weqs.
  - unfold write_jsset. weqs.
  - unfold write_dense. weqs.
  - apply N.
Qed.
(** The steps are applied in order; the Node.js step passes on what is not one of its views. *)
Lemma node_passes enc next v : (forall o b w, nth_error H o = Some (OView b w) -> node_code (vw_tag w) = None) ->
  weq (step_node H enc v next) (next v).
Proof.
  intros U. unfold step_node. destruct v; try apply weq_refl. destruct (nth_error H oid) as [x|] eqn:E; [|apply weq_refl]. destruct x; try apply weq_refl.
  rewrite (U _ _ _ E). apply weq_refl.
Qed.
Lemma weq_trans a b c : weq a b -> weq b c -> weq a c.
Proof. intros A B st. rewrite A. apply B. Qed.
Lemma references_cong enc enc' next next' v : (forall u, weq (next u) (next' u)) ->
  weq (step_references H enc v next) (step_references H enc' v next').
Proof. intros N st. unfold step_references. destruct (deduplicate H v st) as [u s]. destruct u; try apply N. destruct (log_contains _ _ _); [reflexivity|apply N]. Qed.
Theorem encode_node refs d : (forall o b w, nth_error H o = Some (OView b w) -> node_code (vw_tag w) = None) ->
  forall v, weq (encode d (steps_of H cfg refs true) v) (encode d (steps_of H cfg refs false) v).
Proof.
  intros U. induction d as [|d IH]; intros v; [apply weq_refl|]. cbn [encode]. unfold steps_of.
  assert (Tl : forall u, weq (chain (encode d (steps_of H cfg refs true)) ([step_node H] ++ [step_tagwriter H cfg]) u) (chain (encode d (steps_of H cfg refs false)) [step_tagwriter H cfg] u)).
  { intros u. cbn [app chain]. eapply weq_trans; [apply node_passes; auto|]. apply tagwriter_cong; auto. intros x. apply weq_refl. }
  destruct refs; cbn [app chain]; [|apply Tl]. apply references_cong. apply Tl.
Qed.
End Cong.
