(** C66: the codes on the wire. *)
From Coq Require Import Ascii String List NArith ZArith Bool Lia.
From Verif Require Import Base ModelTags ModelPrim PrimFacts ModelValue ValueFacts ModelHeap ModelDecode ModelEncode SpecCodes SpecWire.
From Verif Require Import Prop_Decode.
Import ListNotations.
Open Scope list_scope.
Open Scope N_scope.

Fixpoint text (s : string) : list N := match s with EmptyString => [] | String c s => N_of_ascii c :: text s end.

(** The byte written for a kind of value is the format's, and exactly those bytes are recognised. *)
Theorem C66_value_codes : forall t b, tag_of_byte b = Some t <-> In (t, b) value_codes.
Proof.
  intros t b. split.
  - intros H. apply tag_of_byte_inv in H. subst b. destruct t; cbn; tauto.
  - intros H. cbn in H. repeat (destruct H as [H|H]; [injection H as <- <-; reflexivity|]). destruct H.
Qed.
Theorem C66_value_code_written : forall t, In (t, tag_byte t) value_codes.
Proof. intros t. destruct t; cbn; tauto. Qed.
Print Assumptions C66_value_codes.
Print Assumptions C66_value_code_written.

Lemma find_code {A} (code : A -> N) (all : list A) n x : find (fun t => code t =? n) all = Some x -> code x = n.
Proof. intros H. apply find_some in H as [_ H]. apply N.eqb_eq. exact H. Qed.
Theorem C66_view_codes : forall t b, vtag_of_code b = Some t <-> In (t, b, itemsize t) view_codes.
Proof.
  intros t b. split.
  - intros H. apply find_code in H. subst b. destruct t; cbn; tauto.
  - intros H. cbn in H. repeat (destruct H as [H|H]; [injection H as <- <-; reflexivity|]). destruct H.
Qed.
Theorem C66_view_code_written : forall t, In (t, vtag_byte t, itemsize t) view_codes.
Proof. intros t. destruct t; cbn; tauto. Qed.
Print Assumptions C66_view_codes.
Print Assumptions C66_view_code_written.

Theorem C66_error_codes : forall t b, etag_of_code b = Some t <-> (In (t, b) (map fst prototype_codes) \/ In (t, b) field_codes).
Proof.
  intros t b. split.
  - intros H. apply find_code in H. subst b. destruct t; cbn; tauto.
  - intros H. cbn in H. repeat (destruct H as [H|H]; [try (injection H as <- <-; reflexivity)|]);
      repeat (destruct H as [H|H]; [injection H as <- <-; reflexivity|]); destruct H.
Qed.
Theorem C66_error_code_written : forall t, In (t, etag_byte t) (map fst prototype_codes) \/ In (t, etag_byte t) field_codes.
Proof. intros t. destruct t; cbn; tauto. Qed.
Print Assumptions C66_error_codes.
Print Assumptions C66_error_code_written.

(** The name of a prototype, both ways. Missing for the full statement: the sixth prototype, whose name is
    UriError in the library ([C66_uri_error_refuted]). *)
Theorem C66_error_names_partial : forall t b s, In (t, b, s) prototype_codes -> t <> eUriError ->
  ename_str (for_error_tag t) = text s /\ ename_tag (for_error_name (text s)) = Some t.
Proof.
  intros t b s H N. cbn in H.
  repeat (destruct H as [H|H]; [injection H as <- _ <-; try (split; reflexivity); congruence|]). destruct H.
Qed.
Theorem C66_uri_error_refuted : exists t b s, In (t, b, s) prototype_codes /\
  ename_str (for_error_tag t) <> text s /\ ename_tag (for_error_name (text s)) = None /\
  loads ex_cfg [255; 15; 114; b; 46] = Ok (VRef 0, [OError (text "UriError") (Some []) None VNone]).
Proof.
  exists eUriError, (ch "U"), "URIError"%string. split; [cbn; tauto|]. split; [discriminate|]. split; reflexivity.
Qed.
(** A prototype is written for these names only; an error with any other name is written without one. Missing:
    the sixth prototype, as above. *)
Theorem C66_error_prototype_written_partial : forall s t, s <> text "UriError" ->
  (ename_tag (for_error_name s) = Some t <->
   t <> eUriError /\ exists b name, In (t, b, name) prototype_codes /\ s = text name).
Proof.
  intros s t N. split.
  - unfold for_error_name. destruct (find _ all_enames) as [e|] eqn:F; [|discriminate].
    apply find_some in F as [_ F]. apply listN_eqb_spec in F. subst s.
    intros H. destruct e; try discriminate H; injection H as <-;
      try (split; [discriminate|]; eexists _, _; split; [cbn; tauto|reflexivity]).
    exfalso. apply N. reflexivity.
  - intros [U [b [name [I ->]]]]. exact (proj2 (C66_error_names_partial t b name I U)).
Qed.
Print Assumptions C66_error_names_partial.
Print Assumptions C66_uri_error_refuted.
Print Assumptions C66_error_prototype_written_partial.

(** Node.js's codes for views: the position in its table; a code is written for every kind in the table, the
    first one, and exactly the codes in the table are read. *)
Theorem C66_node_codes_read : forall code, node_format code = nth_error node_codes (N.to_nat code).
Proof.
  intros code. destruct (N.ltb_spec code 13) as [L|L].
  - destruct code as [|p]; [reflexivity|]. do 4 (destruct p as [p|p|]; try reflexivity; try lia).
  - rewrite (proj2 (nth_error_None node_codes _)) by (cbn; lia).
    destruct code as [|p]; [lia|]. do 4 (destruct p as [p|p|]; try reflexivity; try lia).
Qed.
Theorem C66_node_codes_written : forall t code,
  node_code t = Some code <->
  (nth_error node_codes (N.to_nat code) = Some t /\ forall c, c < code -> nth_error node_codes (N.to_nat c) <> Some t).
Proof.
  intros t code. rewrite <- C66_node_codes_read.
  assert (forall c, nth_error node_codes (N.to_nat c) = node_format c) as R by (intros; symmetry; apply C66_node_codes_read).
  assert (forall c u, node_format c = Some u -> node_code u = Some c \/ (c = 10 /\ u = vUint8)) as W.
  { intros c u H. destruct c as [|p]; [injection H as <-; auto|].
    do 4 (destruct p as [p|p|]; try discriminate H; try (injection H as <-; auto)). }
  split.
  - intros H. split; [destruct t; try discriminate H; injection H as <-; reflexivity|].
    intros c L. rewrite R. intros E. apply W in E as [E|[-> ->]]; [rewrite H in E; injection E; lia|].
    injection H as <-. lia.
  - intros [H F]. apply W in H as [H|[-> ->]]; [exact H|]. exfalso. apply (F 1); [lia|]. reflexivity.
Qed.
Print Assumptions C66_node_codes_read.
Print Assumptions C66_node_codes_written.
Example C66_case : loads ex_cfg [255; 15; ch "o"; ch "I"; 2; ch "T"; ch "{"; 1] <> loads ex_cfg [255; 15; ch "o"; ch "I"; 2; ch "F"; ch "{"; 1] /\
  tag_of_byte (ch "X") = None /\ vtag_of_code (ch "c") = None /\ node_code vFloat16 = None /\ node_code vDataView = Some 9.
Proof. split; [vm_compute; discriminate|]. repeat split; reflexivity. Qed.

(** The library's names for groups of codes: those an array buffer may start with, and those of a key of an object. *)
Theorem C66_buffer_codes : forall t, In t JS_ARRAY_BUFFER_TAGS <-> exists b v, wtag (WBuf b v) = t.
Proof.
  intros t. split.
  - intros [<-|[<-|[<-|[<-|[]]]]]; [exists (BufPlain [])|exists (BufResizable [] 0)|exists (BufShared 0)|exists (BufTransfer 0)]; exists None; reflexivity.
  - intros (b & v & <-). destruct b; cbn; auto.
Qed.
Print Assumptions C66_buffer_codes.
Theorem C66_key_codes : forall t, In t JS_OBJECT_KEY_TAGS <->
  In t [kInt32; kUint32; kDouble; kNumberObject] \/ In t JS_STRING_TAGS.
Proof. intros t. destruct t; cbn; intuition discriminate. Qed.
Print Assumptions C66_key_codes.
