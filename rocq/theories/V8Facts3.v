(** V8 accepts the buffers, views and references that dumps writes. *)
From Coq Require Import List NArith ZArith Bool Lia.
From Coq Require Import ZifyBool ZifyN ZifyNat.
From Verif Require Import Base Dict ModelTags ModelPrim SpecPrim PrimFacts SpecNumber ModelLog ModelArray ArrayFacts3 ModelValue ModelObject
  ModelMap ModelBuffer BufferFacts ModelHeap ModelDecode SpecWire SpecBuild BuildFacts DecodeSound ModelEncode SpecEncode SpecParts SpecFail HashFacts
  EncodeFacts EncodeFacts2 EncodeFacts3 SpecV8 V8Facts2 SpecV8Accepts.
Import ListNotations.
Open Scope N_scope.

Section Written.
Variable H : heap.
Variable cfg : ecfg.
Variable refs : bool.
Variable root : val.
Notation rep := (rep_of H refs root).
Notation occ := (occurs H root).
Notation desc := (describes H cfg refs false rep).
Notation wrt := (writes H cfg refs false rep).
Notation vals_of := (wvals_of H cfg refs false rep).
Notation pairs_of := (wpairs_of H cfg refs false rep).
Notation occs := (occs H root).

(** How an object is written, if it is a buffer *)
Definition wire_buf (x : obj) : option wbuf :=
  match x with
  | OBuffer b => Some (if jb_resizable b && f_resizable (e_features cfg) then BufResizable (jsbuf_view b) (Z.to_N (jb_max b)) else BufPlain (jsbuf_view b))
  | OShared id => Some (BufShared id)
  | OTransfer id => Some (BufTransfer id)
  | OBytes d | OByteArray d => Some (BufPlain d)
  | _ => None
  end.
(** The objects recorded so far and V8's table *)
Definition table (r : list nat) (t : list (option wbuf)) : Prop :=
  refs = true -> Forall2 (fun o b => forall x, nth_error H o = Some x -> b = wire_buf x) r t.
Lemma table_nil : table [] []. Proof. intros _. constructor. Qed.
Lemma table_snoc r t o x : table r t -> nth_error H o = Some x -> table (r ++ [o]) (t ++ [wire_buf x]).
Proof. intros T E R. apply Forall2_app; [apply T, R|]. constructor; [|constructor]. intros y Y. congruence. Qed.
Lemma table_off r t r' t' : refs = false -> table r t -> table r' t'.
Proof. intros E _ R. congruence. Qed.
Lemma table_nth r t i o x : refs = true -> table r t -> nth_error r i = Some o -> nth_error H o = Some x -> nth_error t i = Some (wire_buf x).
Proof.
  intros R T. specialize (T R). revert i. induction T as [|a b r t E T IH]; intros [|i] A X; try discriminate; cbn in *.
  - injection A as ->. f_equal. auto.
  - eauto.
Qed.

Lemma element_isize t : Z.of_N (element_size t) = isize t.
Proof. destruct t; reflexivity. Qed.
Lemma mod_N_Z a s : (0 <= a)%Z -> 0 < s -> (a mod Z.of_N s = 0)%Z -> Z.to_N a mod s = 0.
Proof. intros A P E. apply N2Z.inj. rewrite N2Z.inj_mod, Z2N.id by lia. exact E. Qed.
(** A view written after a buffer *)
Definition bk_of (x : obj) : backing :=
  match x with OBuffer b => BkBuffer b | OBytes d => BkBytes d | OByteArray d => BkByteArray d | _ => BkInaccessible end.
Definition regular (x : obj) : Prop :=
  match x with OByteArray _ => False | OBuffer j => jb_resizable j = true -> f_resizable (e_features cfg) = true | _ => True end.
Lemma view_taken x v b : view_ok v -> regular x -> wire_buf x = Some b -> takes_view b (wview_of (bk_of x) v).
Proof.
  intros VO FX W. set (k := bk_of x) in *.
  destruct (view_memory k v) as [inr d] eqn:VM. pose proof (view_memory_spec _ _ _ _ VO VM) as SP. cbn zeta in SP. destruct SP as (S1 & S2 & S3 & S4).
  pose proof (view_memory_items _ _ _ _ VO VM) as IT. pose proof (isize_pos (vw_tag v)) as IP.
  assert (OFF : (0 <= view_byte_offset k v)%Z /\ (view_byte_offset k v mod isize (vw_tag v) = 0)%Z /\
    (view_byte_offset k v + view_byte_length k v <= zlen (data_of k))%Z).
  { unfold view_byte_offset, view_byte_length, view_in_range. rewrite VM. cbn [fst snd]. destruct inr.
    - destruct VO as [O L]. split; [nia|]. split; [apply Z.mod_mul; lia|].
      destruct (S3 eq_refl) as (p1 & p2 & E & P). rewrite E. unfold zlen in *. rewrite !app_length. lia.
    - rewrite S2 by reflexivity. split; [lia|]. split; [apply Z.mod_0_l; lia|]. unfold zlen. cbn [length]. lia. }
  destruct OFF as (O1 & O2 & O3). assert (O4 : (0 <= view_byte_length k v)%Z) by (unfold view_byte_length, zlen; lia).
  assert (WE : whole_elements (wview_of k v)).
  { unfold whole_elements, wview_of. cbn [wv_off wv_len wv_tag].
    assert (EP : 0 < element_size (vw_tag v)) by (destruct (vw_tag v); reflexivity).
    split; apply mod_N_Z; auto; rewrite element_isize; auto.
    unfold view_byte_length. rewrite VM. exact IT. }
  split; [exact WE|].
  assert (WI : forall n, (zlen (data_of k) <= Z.of_N n)%Z -> within n (wview_of k v)).
  { intros n En. unfold within, wview_of. cbn [wv_off wv_len]. lia. }
  assert (FL : forall r, bk_resizable k = r -> flags_agree r (wview_of k v)).
  { intros r <-. unfold flags_agree, wview_of, view_tracking. cbn [wv_flags]. destruct (vw_length v), (bk_resizable k); cbn; auto. }
  destruct x; cbn [wire_buf] in W; try discriminate; try (injection W as <-).
  - destruct (jb_resizable b0 && f_resizable (e_features cfg)) eqn:R; (split; [apply WI; unfold k, data_of, zlen, lenN; cbn [bk_of bk_data]; lia|apply FL; unfold k; cbn [bk_of bk_resizable]]).
    + destruct (jb_resizable b0); [reflexivity|discriminate].
    + cbn in FX. destruct (jb_resizable b0); auto. rewrite FX in R by reflexivity. discriminate.
  - split; [intros n; apply WI; cbn; unfold zlen; cbn; lia|apply FL; reflexivity].
  - split; [intros n; apply WI; cbn; unfold zlen; cbn; lia|apply FL; reflexivity].
  - split; [apply WI; unfold k, data_of, zlen, lenN; cbn [bk_of bk_data]; lia|apply FL; reflexivity].
  - contradiction.
Qed.
Lemma backing_bk b x : nth_error H b = Some x -> backing_of H b = bk_of x.
Proof. intros E. unfold backing_of. rewrite E. destruct x; reflexivity. Qed.
Lemma rep_wire b v0 x : rep (VRef b) v0 -> occ (VRef b) -> wf_graph H cfg root -> nth_error H b = Some x -> buffer_like x ->
  exists b0 x0, v0 = VRef b0 /\ nth_error H b0 = Some x0 /\ buffer_like x0 /\ wire_buf x0 = wire_buf x.
Proof.
  unfold rep_of. intros R OC WF Hb Hy. destruct refs; [|subst; exists b, x; auto]. destruct R as [<-|(A & B & O0)]; [exists b, x; auto|].
  destruct (hash_key_eq H _ _ A B) as [b0 ->]. pose proof (hash_key_buffer H b b0 x A B Hb) as K. exists b0.
  destruct x; try contradiction; try (eexists; split; [reflexivity|]; split; [exact K|]; auto; fail).
  destruct K as (y0 & E & K1 & K2 & K3 & _). exists (OBuffer y0). split; auto. split; auto. split; [exact I|].
  cbn [wire_buf]. unfold jsbuf_view. rewrite K1, K2, K3. reflexivity.
Qed.
(** What stands for a buffer: the buffer, or a reference to it *)
Lemma buffer_wire open key b x r w r1 t : desc open key (VRef b) r w r1 -> occ (VRef b) -> wf_graph H cfg root -> nth_error H b = Some x -> buffer_like x ->
  table r t ->
  match w with
  | WBuf y None => wire_buf x = Some y
  | WRef id None => exists y, nth_error t (N.to_nat id) = Some (Some y) /\ wire_buf x = Some y
  | _ => False
  end.
Proof.
  intros D O WF Hx BL T. inversion D as [? ? ? v0 ? ? ? R Wr]; subst. destruct (rep_wire _ _ _ R O WF Hx BL) as (b0 & x0 & -> & H0 & BL0 & EW).
  rewrite <- EW. inversion Wr; subst; try match goal with X : nth_error H b0 = Some _ |- _ => rewrite H0 in X; injection X as -> end; try contradiction; cbn [wire_buf]; auto.
  - rewrite Nat2N.id. destruct (wire_buf x0) as [y|] eqn:Y; [exists y; split; auto; rewrite <- Y; eapply table_nth; eauto|].
    destruct x0; cbn in *; try contradiction; discriminate.
  - match goal with X : _ && _ = _ |- _ => rewrite X end. reflexivity.
  - match goal with X : _ && _ = _ |- _ => rewrite X end. reflexivity.
Qed.
Lemma utf8_others x y : others (field_ids (utf8_field x) + field_ids (utf8_field y)) = [].
Proof. destruct x, y; reflexivity. Qed.

(** Which objects the theorem is about *)
Hypothesis WF : wf_graph H cfg root.
Hypothesis NUM : refs = true -> forall o x, occ (VRef o) -> nth_error H o = Some x -> numbered_obj x.
Hypothesis REG : forall o b v x, occ (VRef o) -> nth_error H o = Some (OView b v) -> nth_error H b = Some x -> regular x.

Definition good (w : wval) (r r' : list nat) : Prop :=
  forall t, table r t -> v8_accepts t w /\ table r' (t ++ v8_objects w).
Definition good_vals (ws : wvals) (r r' : list nat) : Prop :=
  forall t, table r t -> v8_accepts_vals t ws /\ table r' (t ++ v8_objects_vals ws).
Definition good_pairs (ps : wpairs) (r r' : list nat) : Prop :=
  forall t, table r t -> v8_accepts_pairs t ps /\ table r' (t ++ v8_objects_pairs ps).
Lemma describes_accepted :
  (forall open key v r w r', desc open key v r w r' -> occ v -> good w r r') /\
  (forall open key v r w r', wrt open key v r w r' -> occ v -> good w r r') /\
  (forall open l r ws r', vals_of open l r ws r' -> Forall occ l -> good_vals ws r r') /\
  (forall open key l r ps r', pairs_of open key l r ps r' -> occs l -> good_pairs ps r r').
Proof.
  apply describes_mutind; intros;
    try match goal with O : occ (VRef ?o), X : nth_error H ?o = Some ?x, I : Forall occ ?l -> _ |- _ =>
    let Y := fresh in assert (Y : Forall occ l) by (apply (occ_children H root o x); auto; cbn [children]; auto using incl_refl, incl_appl); specialize (I Y) end;
    try match goal with O : occ (VRef ?o), X : nth_error H ?o = Some ?x, I : occs ?l -> _ |- _ =>
    let Y := fresh in assert (Y : occs l) by (apply (occ_children H root o x); auto; auto using incl_refl, named_in, own_in); specialize (I Y) end;
    intros tb T.
  all: try match goal with X : int_wire _ _ _ |- _ => destruct X end.
  all: cbn [v8_accepts v8_objects v8_accepts_vals v8_objects_vals v8_accepts_pairs v8_objects_pairs str_ids others view_ids].
  all: try solve [cbn; rewrite ?app_nil_r; auto].
  all: try match goal with X : nth_error H ?o = Some ?x |- context [table (?r ++ [?o])] =>
    let Y := fresh "TS" in pose proof (table_snoc r tb o x T X) as Y; cbn [wire_buf] in Y end.
  all: try match goal with X : nth_error H ?o = Some ?x, G : good_pairs _ (?r ++ [?o]) _ |- _ =>
    let Y := fresh "TS" in pose proof (table_snoc r tb o x T X) as Y; cbn [wire_buf] in Y end.
  all: try match goal with X : nth_error H ?o = Some ?x, G : good_vals _ (?r ++ [?o]) _ |- _ =>
    let Y := fresh "TS" in pose proof (table_snoc r tb o x T X) as Y; cbn [wire_buf] in Y end.
  all: try solve [split; [cbn; auto|exact TS]].
  all: try solve [match goal with G : good_pairs _ (?r ++ [?o]) _, X : table (?r ++ [?o]) _ |- _ => specialize (G _ X) end;
     rewrite <- app_assoc in *; auto].
  all: try solve [match goal with G : good_vals _ (?r ++ [?o]) _, X : table (?r ++ [?o]) _ |- _ => specialize (G _ X) end;
     rewrite <- app_assoc in *; auto].
  - match goal with X : occ v0 -> _ |- _ => apply X; auto end. eapply rep_occ; eauto.
  - rewrite Nat2N.id, app_nil_r. split; auto.
    assert (exists x, nth_error H o = Some x) as [x Hx] by (match goal with O : occ (VRef o) |- _ => destruct (WF _ O) as (x & Hx & _); eauto end).
    exists (wire_buf x). split; auto. eapply table_nth; eauto.
  - match goal with X : prim_wire _ _ _ |- _ => destruct X end; split; cbn; auto.
  - split; auto. intros R. exfalso. match goal with O : occ _, X : nth_error _ _ = _ |- _ => pose proof (NUM R _ _ O X) as Y end. exact Y.
  - split; auto. intros R. exfalso. match goal with O : occ _, X : nth_error _ _ = _ |- _ => pose proof (NUM R _ _ O X) as Y end. apply Y. reflexivity.
  - rewrite utf8_others. cbn [field_ids others N.to_nat repeat app]. rewrite app_nil_r.
    match goal with X : nth_error H o = Some _ |- _ => pose proof (table_snoc r tb o _ T X) as TS end. cbn [wire_buf] in TS.
    assert (OC : occ c) by (eapply occ_child; [eassumption|eassumption|]; cbn; destruct c; cbn; auto; congruence).
    match goal with X : occ c -> _ |- _ => destruct (X OC _ TS) as [X1 X2] end. rewrite <- app_assoc in X2. auto.
  - match goal with G : good_vals _ _ _, G' : good_pairs _ _ _ |- _ => destruct (G _ TS) as [G1 G2]; destruct (G' _ G2) as [G3 G4] end.
    rewrite <- !app_assoc in *. cbn [app] in *. auto.
  - match goal with G : good_vals _ _ _ |- _ => destruct (G _ TS) as [G1 G2] end.
    rewrite <- !app_assoc in *. cbn [app] in *. rewrite app_nil_r. auto.
  - split; [cbn; auto|]. match goal with X : _ && _ = _ |- _ => rewrite X in TS end. exact TS.
  - split; [|match goal with X : _ && _ = _ |- _ => rewrite X in TS end; exact TS]. split; auto.
    match goal with O : occ (VRef o), X : nth_error H o = _ |- _ => destruct (WF _ O) as (y & Hy & W); rewrite X in Hy; injection Hy as <- end.
    cbn in W. destruct W as (_ & W & _). cbn [takes_buffer]. rewrite jsbuf_view_all by exact W. unfold lenN, zlen in *. lia.
  - split; [cbn; auto|]. intros R. match goal with X : refs = true -> o' = o |- _ => rewrite (X R) end.
    match goal with X : nth_error H o = Some _ |- _ => exact (table_snoc r tb o _ T X R) end.
  - assert (OB : occ (VRef b)) by (eapply occ_child; eauto; cbn; auto).
    match goal with O : occ (VRef o), X : nth_error H o = _ |- _ => destruct (WF _ O) as (y & Hy & W); rewrite X in Hy; injection Hy as <- end.
    destruct W as (VO & x & Hx & BL).
    match goal with X : desc _ _ (VRef b) _ _ _ |- _ => pose proof (buffer_wire _ _ _ _ _ _ _ _ X OB WF Hx BL T) as BW end.
    match goal with X : occ (VRef b) -> _ |- _ => destruct (X OB _ T) as [A1 A2] end.
    rewrite (backing_bk _ _ Hx) in *. assert (RG : regular x) by eauto.
    match goal with X : nth_error H o = Some _ |- _ => pose proof (table_snoc _ _ _ _ A2 X) as TS end. cbn [wire_buf] in TS. rewrite <- app_assoc in TS.
    match goal with X : attach _ _ _ |- _ => destruct X end; cbn [v8_accepts v8_objects] in *.
    + split; [|exact TS]. destruct A1 as [A1 _]. split; auto. apply view_taken; auto.
    + split; [|exact TS]. destruct BW as (z & Ez & Wz). exists (Some z). split; auto. exists z. split; auto. apply view_taken; auto.
  - discriminate.
  - match goal with X : Forall occ (_ :: _) |- _ => inversion X; subst end.
    match goal with I : occ v -> good w _ _, J : Forall occ l -> _ |- _ => destruct (I ltac:(assumption) _ T) as [A1 A2]; destruct (J ltac:(assumption) _ A2) as [A3 A4] end.
    rewrite <- app_assoc in A4. auto.
  - match goal with X : EncodeFacts3.occs _ _ _ |- _ => apply occs_cons in X as (Ok & Ov & Ol) end.
    match goal with I : occ k -> good w1 _ _, J : occ v -> good w2 _ _, K : _ -> good_pairs _ _ _ |- _ =>
      destruct (I Ok _ T) as [A1 A2]; destruct (J Ov _ A2) as [A3 A4]; destruct (K Ol _ A4) as [A5 A6] end.
    rewrite <- !app_assoc in *. auto.
Qed.
End Written.
