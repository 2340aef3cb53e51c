(** The decoder always answers, within the data, and with a known set of exceptions. *)
From Coq Require Import List NArith ZArith Bool Lia ZifyBool ZifyNat ZifyN.
From Verif Require Import Base Dict ModelTags ModelPrim PrimFacts PrimFacts2 PrimFacts3 ModelValue KeyFacts ModelObject
  ObjectFacts ModelMap MapFacts ModelBuffer BufferFacts ModelHeap ModelDecode.
Import ListNotations.
Open Scope N_scope.

(** The exceptions loads can let through. *)
Definition allowed (e : exn) : bool :=
  match e with
  | EDecode | EUnhandledTag | ENodeHost | EIndex | EValue | EOverflow | EOSError | EAssert | EItemSize | EBounds => true
  | _ => false
  end.
Definition post {A} (P : A -> Prop) (r : result A) : Prop :=
  match r with Ok a => P a | Err e => allowed e = true end.
Lemma post_bind {A B} (P : A -> Prop) (Q : B -> Prop) m (k : A -> result B) :
  post P m -> (forall a, P a -> post Q (k a)) -> post Q (bind m k).
Proof. destruct m; cbn; auto. Qed.
Lemma post_weaken {A} (P Q : A -> Prop) m : post P m -> (forall a, P a -> Q a) -> post Q m.
Proof. destruct m; cbn; auto. Qed.

(** * Accumulators *)
Definition acc_ok (a : obj) : Prop :=
  match a with
  | OMap m => cinv no_bytes (@fst val val) m
  | OObject o | OArray o => exists m, rep o m
  | _ => False
  end.
Definition set_ok (a : obj) : Prop := match a with OSet m => cinv no_bytes (fun k : val => k) m | _ => False end.
Definition same_kind (a b : obj) : Prop :=
  match a, b with
  | OMap _, OMap _ | OObject _, OObject _ | OArray _, OArray _ => True
  | _, _ => False
  end.

Lemma jo_put_safe fr (o : jsobj val) k v : (exists m, rep o m) -> val_key k <> None ->
  post (fun o' => exists m, rep o' m) (jo_put fr o k v).
Proof.
  intros [m R] K. unfold jo_put. destruct (val_key k) as [kk|]; [|congruence].
  destruct (normalise_property_key fr kk) as [p|e] eqn:N; cbn [bind].
  - destruct (rep_set o m p (elem_of v) R (norm_pok _ _ _ N)) as [r [o' [E [R' [Out _]]]]].
    rewrite E. destruct Out as [->|[-> _]]; cbn; eauto.
  - apply normalise_error in N as [-> _]. reflexivity.
Qed.
Lemma put_safe cfg acc k v : acc_ok acc -> key_ok acc k = true ->
  post (fun acc' => acc_ok acc' /\ same_kind acc acc') (put cfg acc k v).
Proof.
  intros A K. destruct acc; cbn [acc_ok] in A; try contradiction; cbn [put].
  - pose proof (jm_set_spec no_bytes m k v A) as J. destruct (jm_set no_bytes m k v); cbn.
    + split; [apply J|exact I].
    + destruct J as [-> _]. reflexivity.
  - eapply post_bind; [apply jo_put_safe; [exact A|]|].
    + cbn in K. destruct (val_key k); congruence.
    + intros o' R. cbn. auto.
  - eapply post_bind; [apply jo_put_safe; [exact A|]|].
    + cbn in K. destruct (val_key k); congruence.
    + intros o' R. cbn. auto.
Qed.
Lemma put_member_safe acc v : set_ok acc -> post set_ok (put_member acc v).
Proof.
  destruct acc; cbn [set_ok]; try contradiction. intros A. cbn [put_member].
  pose proof (js_add_spec no_bytes m v A) as J. destruct (js_add no_bytes m v); cbn.
  - apply J.
  - destruct J as [-> _]. reflexivity.
Qed.
Lemma same_kind_key a b k : same_kind a b -> key_ok a k = key_ok b k.
Proof. destruct a, b; cbn; try contradiction; auto. Qed.
Lemma same_kind_trans a b c : same_kind a b -> same_kind b c -> same_kind a c.
Proof. destruct a, b, c; cbn; try contradiction; auto. Qed.
Lemma same_kind_refl a : acc_ok a -> same_kind a a.
Proof. destruct a; cbn; auto. Qed.

(** * Leaf readers *)
Section Leaf.
Variable data : bytes.
Notation len := (length data).
Local Open Scope nat_scope.
Definition adv {A} (pos : nat) (x : A * nat) : Prop := pos <= snd x <= len.
Definition adv1 {A} (pos : nat) (x : A * nat) : Prop := pos < snd x <= len.

Ltac adv := unfold adv1, adv in *; cbn [fst snd post] in *; intros; lia.
Lemma tag_post pos : post (adv1 pos) (read_tag data pos).
Proof.
  destruct (read_tag data pos) as [[t p]|e] eqn:E; cbn.
  - apply read_tag_sound in E as [_ [k C]]. apply consumed_bounds in C as [-> B].
    unfold adv1. rewrite app_length in *. cbn [length snd] in *. lia.
  - apply read_tag_err in E. subst. reflexivity.
Qed.
Lemma varint_post pos mb : post (adv1 pos) (read_varint data pos mb).
Proof.
  destruct (read_varint data pos mb) as [[t p]|e] eqn:E; cbn.
  - apply read_varint_bounds in E. adv.
  - apply read_varint_err in E. subst. reflexivity.
Qed.
Lemma uint32_post pos : post (adv1 pos) (read_uint32 data pos).
Proof.
  unfold read_uint32. eapply post_bind; [apply varint_post|]. intros [v p] A. destruct (in_uint32 _); cbn; auto.
Qed.
Lemma int32_post pos : post (adv1 pos) (read_int32 data pos).
Proof.
  unfold read_int32. eapply post_bind; [apply varint_post|]. intros [v p] A. destruct (in_int32 _); cbn; auto.
Qed.
Lemma bytes_post pos n : post (adv pos) (read_bytes data pos n).
Proof.
  destruct (read_bytes data pos n) as [[t p]|e] eqn:E; cbn.
  - apply read_bytes_sound in E as [C _]. apply consumed_bounds in C. unfold adv; cbn; lia.
  - apply read_bytes_err in E. subst. reflexivity.
Qed.
Lemma adv_trans {A B} pos (x : A * nat) (y : B * nat) : adv1 pos x -> adv (snd x) y -> adv1 pos y.
Proof. unfold adv1, adv. lia. Qed.
Lemma double_post pos : post (adv pos) (read_double data pos).
Proof.
  unfold read_double. eapply post_bind; [apply bytes_post|]. intros [v p] A. exact A.
Qed.
Lemma bigint_post pos : post (adv1 pos) (read_bigint data pos).
Proof.
  unfold read_bigint. eapply post_bind; [apply varint_post|]. intros [v p] A.
  eapply post_bind; [apply bytes_post|]. intros [bs p2] B. exact (adv_trans _ _ _ A B).
Qed.
Lemma onebyte_post pos : post (adv1 pos) (read_onebyte data pos).
Proof.
  unfold read_onebyte. eapply post_bind; [apply varint_post|]. intros [v p] A.
  eapply post_weaken; [apply bytes_post|]. intros x B. exact (adv_trans _ _ _ A B).
Qed.
Lemma twobyte_post pos : post (adv1 pos) (read_twobyte data pos).
Proof.
  unfold read_twobyte. eapply post_bind; [apply varint_post|]. intros [v p] A.
  eapply post_bind; [apply bytes_post|]. intros [bs p2] B. destruct (utf16_decode bs); [|reflexivity].
  exact (adv_trans _ _ _ A B).
Qed.
Lemma utf8_post pos : post (adv1 pos) (read_utf8 data pos).
Proof.
  unfold read_utf8. eapply post_bind; [apply varint_post|]. intros [v p] A.
  eapply post_bind; [apply bytes_post|]. intros [bs p2] B. destruct (utf8_decode bs); [|reflexivity].
  exact (adv_trans _ _ _ A B).
Qed.
Lemma errtag_post pos : post (adv1 pos) (read_error_tag data pos).
Proof.
  unfold read_error_tag. destruct (has_capacity data pos 1); cbn [negb]; [|reflexivity].
  eapply post_bind; [apply varint_post|]. intros [v p] A. destruct (etag_of_code v); [exact A|].
  destruct (nth_error data p); reflexivity.
Qed.
Lemma count_post pos n : post (fun p => pos < p <= len) (check_count data pos n).
Proof.
  unfold check_count. eapply post_bind; [apply varint_post|]. intros [v p] A. destruct (v =? n)%N; cbn; auto.
Qed.
Lemma peak_post pos : post (fun _ => pos <= len) (peak_tag data pos).
Proof.
  unfold peak_tag. destruct (Nat.eqb_spec pos len); [cbn; lia|].
  destruct (nth_error data pos) eqn:E; [|reflexivity]. cbn.
  assert (pos < len) by (apply nth_error_Some; congruence). lia.
Qed.
End Leaf.

(** * Composite readers *)
Section Dec.
Variable cfg : dcfg.
Variable data : bytes.
Variable version : N.
Notation len := (length data).
Local Open Scope nat_scope.

Definition dadv {A} (pos : nat) (x : A * nat * dstate) : Prop := pos <= snd (fst x) <= len.
Ltac adv :=
  unfold adv1, adv, dadv in *; cbn [fst snd post alloc_rec alloc] in *; intros;
  repeat match goal with x : _ * _ |- _ => destruct x end; cbn [fst snd] in *; lia.
(** What the tag says about the Python type of the value. *)
Definition typed (t : stag) (v : val) : Prop :=
  (tag_in t JS_OBJECT_KEY_TAGS = true -> val_key v <> None) /\
  (tag_in t JS_STRING_TAGS = true -> exists s, v = VStr s).
Definition rec_safe (fuel : nat) (rec : reader) : Prop :=
  forall t pos st, pos <= len -> len - pos + 1 < fuel ->
    post (fun x => dadv pos x /\ typed t (fst (fst x))) (rec t pos st).

Lemma view_post buffer pos st : post (dadv pos) (dec_view data version buffer pos st).
Proof.
  unfold dec_view. eapply post_bind; [apply varint_post|]. intros [code p] A.
  destruct (vtag_of_code code) as [vt|]; [|reflexivity].
  eapply post_bind; [apply uint32_post|]. intros [off p2] B.
  eapply post_bind; [apply uint32_post|]. intros [ln p3] C.
  eapply post_bind with (P := adv data p3).
  { destruct (14 <=? version)%N; [eapply post_weaken; [apply varint_post|]; adv|].
    adv. }
  intros [flags p4] D.
  destruct (view_from_bytes _ _ _ _ _) as [v|e] eqn:E; cbn [bind].
  - adv.
  - cbn. unfold view_from_bytes in E.
    repeat match type of E with (if ?b then _ else _) = _ => destruct b; [injection E as <-; reflexivity|] end.
    apply bind_Err in E. destruct E as [E|[x [_ E]]].
    + unfold view_new in E. 
      assert (0 <= isize vt)%Z by (unfold isize; lia).
      assert (0 < isize vt)%Z by (destruct vt; reflexivity).
      destruct (_ <? 0)%Z eqn:L in E.
      { exfalso. pose proof (Z.div_pos (Z.of_N off) (isize vt)). lia. }
      destruct (N.odd flags); [discriminate E|].
      destruct (_ <? 0)%Z eqn:L2 in E; [|discriminate E].
      exfalso. pose proof (Z.div_pos (Z.of_N ln) (isize vt)). lia.
    + destruct (bk_data _); [|discriminate E].
      match type of E with (if ?b then _ else _) = _ => destruct b; [injection E as <-; reflexivity|discriminate E] end.
Qed.
Lemma maybe_view_post buffer pos st : post (dadv pos) (dec_maybe_view data version buffer pos st).
Proof.
  unfold dec_maybe_view. eapply post_bind; [apply peak_post|]. intros t L.
  assert (post (dadv pos) (Ok (VRef buffer, pos, st))) as D by (adv).
  destruct t as [t|]; [|exact D]. destruct t; try exact D.
  eapply post_weaken; [apply view_post|]. adv.
Qed.
Lemma jsbuf_plain d : jsbuf_new d None false false = Ok (mkBuf d (zlen d) false false).
Proof. unfold jsbuf_new. cbn. rewrite Z.ltb_irrefl. reflexivity. Qed.
Lemma jsbuf_resizable d mx : (zlen d <= mx)%Z ->
  jsbuf_new d (Some mx) true false = Ok (mkBuf d mx true false).
Proof. intros H. unfold jsbuf_new. cbn. destruct (Z.ltb_spec mx (zlen d)); [lia|reflexivity]. Qed.
Lemma slice_length d p n : length (slice d p n) <= n.
Proof. unfold slice. rewrite firstn_length. lia. Qed.

Lemma plain_post pos st : post (dadv pos) (dec_buffer_plain data version pos st).
Proof.
  unfold dec_buffer_plain. eapply post_bind; [apply uint32_post|]. intros [n p] A.
  destruct (has_capacity data p n); [cbn [negb]|reflexivity].
  rewrite jsbuf_plain. cbn [bind]. cbn [alloc_rec alloc].
  eapply post_weaken; [apply maybe_view_post|]. adv.
Qed.
Lemma resizable_post pos st : post (dadv pos) (dec_buffer_resizable data version pos st).
Proof.
  unfold dec_buffer_resizable. eapply post_bind; [apply uint32_post|]. intros [n p] A.
  destruct (_ <? _)%N; [cbn [negb]|reflexivity].
  eapply post_bind; [apply uint32_post|]. intros [mx p2] B.
  destruct (mx <? n)%N eqn:L; [reflexivity|].
  rewrite jsbuf_resizable.
  2: { pose proof (slice_length data p2 (N.to_nat n)). unfold zlen. lia. }
  cbn [bind alloc_rec alloc].
  eapply post_weaken; [apply maybe_view_post|]. adv.
Qed.
Lemma buffer_id_post mk pos st : post (dadv pos) (dec_buffer_id data version mk pos st).
Proof.
  unfold dec_buffer_id. eapply post_bind; [apply uint32_post|]. intros [n p] A. cbn [alloc].
  eapply post_weaken; [apply maybe_view_post|]. adv.
Qed.
Lemma reference_post pos st : post (dadv pos) (dec_reference data version pos st).
Proof.
  unfold dec_reference. eapply post_bind; [apply varint_post|]. intros [id p] A.
  destruct (_ <? _)%N; [cbn [negb]|reflexivity].
  assert (forall v : val, post (dadv pos) (Ok (v, p, st))) as D.
  { intros v. cbn [post]. adv. }
  destruct (nth_error (ds_log st) (N.to_nat id)) as [v|]; [|reflexivity].
  destruct v as [| | | | | | |oid]; try apply D. destruct (nth_error (ds_heap st) oid) as [x|]; [|apply D].
  destruct (is_buffer x); [|apply D].
  eapply post_weaken; [apply maybe_view_post|]. adv.
Qed.
Lemma host_post pos st : post (dadv pos) (dec_host data pos st).
Proof.
  unfold dec_host. eapply post_bind; [apply uint32_post|]. intros [code p] A.
  eapply post_bind; [apply uint32_post|]. intros [n p2] B.
  destruct (node_format code); [|reflexivity].
  destruct (has_capacity data p2 n) eqn:C; cbn [negb]; [|reflexivity].
  rewrite jsbuf_plain. change (view_new v 0 None false) with (Ok (mkView v 0 None false)). cbn [bind alloc].
  unfold has_capacity, lenN in C. adv.
Qed.
Lemma date_post pos st : post (dadv pos) (dec_date cfg data pos st).
Proof.
  unfold dec_date. eapply post_bind; [apply double_post|]. intros [b p] A.
  destruct (c_date cfg b) as [d|[]]; cbn; try reflexivity. exact A.
Qed.

Section Rec.
Variable rec : reader.
Variable fuel : nat.
Hypothesis R : rec_safe fuel rec.

Lemma value_post pos st : len - pos < fuel -> post (dadv (S pos)) (dec_value data rec pos st).
Proof.
  intros F. unfold dec_value. eapply post_bind; [apply tag_post|]. intros [t p] A. unfold adv1 in A; cbn in A.
  eapply post_weaken; [apply R; lia|]. unfold dadv. intros x [B _]. lia.
Qed.
Lemma string_post pos st : len - pos < fuel -> post (dadv (S pos)) (dec_string data rec pos st).
Proof.
  intros F. unfold dec_string. eapply post_bind; [apply tag_post|]. intros [t p] A. unfold adv1 in A; cbn in A.
  destruct (tag_in t JS_STRING_TAGS) eqn:T; cbn [negb]; [|reflexivity].
  eapply post_bind; [apply R; lia|]. intros [[v p2] st2] [B [_ S]]. destruct (S T) as [s Es]. cbn in Es. subst v.
  adv.
Qed.
Lemma regexp_post pos st : len - pos < fuel -> post (dadv pos) (dec_regexp data rec pos st).
Proof.
  intros F. unfold dec_regexp. eapply post_bind; [apply string_post; auto|]. intros [[s p] st2] A. cbn in A.
  eapply post_bind; [apply varint_post|]. intros [fl p2] B.
  unfold regexp_new. destruct (_ && _)%bool; cbn; [reflexivity|]. adv.
Qed.
Lemma field_post f e pos st : len - pos < fuel -> pos <= len -> post (dadv pos) (dec_field data rec f e pos st).
Proof.
  intros F L. unfold dec_field. destruct (etag_beq e f); [|adv].
  eapply post_bind; [apply string_post; auto|]. intros [[s p] st2] A. cbn in A.
  eapply post_bind; [apply errtag_post|]. intros [e2 p2] B. adv.
Qed.
Lemma error_post pos st : len - pos < fuel -> post (dadv pos) (dec_error data rec pos st).
Proof.
  intros F. unfold dec_error. eapply post_bind; [apply errtag_post|]. intros [e p] A.
  eapply post_bind with (P := adv data p).
  { destruct (ename_beq _ _); [adv|].
    eapply post_weaken; [apply errtag_post|]. adv. }
  intros [e2 p2] B. unfold adv, adv1 in *; cbn in *.
  eapply post_bind; [apply field_post; lia|]. intros [[[m e3] p3] st3] C. unfold dadv in C; cbn in C.
  eapply post_bind; [apply field_post; lia|]. intros [[[s e4] p4] st4] D. unfold dadv in D; cbn in D.
  cbn [alloc_rec alloc].
  eapply post_bind with (P := dadv p4).
  { destruct (etag_beq e4 eCause); [|adv].
    eapply post_bind; [apply value_post; lia|]. intros [[c p5] st5] E. unfold dadv in E; cbn in E.
    eapply post_bind; [apply errtag_post|]. intros [e6 p6] G. adv. }
  intros [[[c e5] p5] st5] E. unfold dadv in E; cbn in E.
  eapply post_bind with (P := dadv p5).
  { destruct s; [adv|]. apply field_post; lia. }
  intros [[[s6 e6] p6] st6] G. unfold dadv in G; cbn in G.
  destruct (etag_beq e6 eEnd); [|reflexivity]. cbn. adv.
Qed.

Lemma pairs_post isk endt : forall f pos acc n st, f <= fuel -> len - pos < f -> acc_ok acc ->
  (match acc with OMap _ => True | _ => forall t, isk t = true -> is_object_key t = true end) ->
  post (fun x => dadv (S pos) x /\ acc_ok (fst (fst (fst x))) /\ same_kind acc (fst (fst (fst x))))
       (dec_pairs cfg data rec isk endt f pos acc n st).
Proof.
  induction f as [|f IH]; intros pos acc n st LE F A K; [lia|]. cbn [dec_pairs].
  eapply post_bind; [apply tag_post|]. intros [t p] B. unfold adv1 in B; cbn in B.
  destruct (stag_eqb t endt).
  { cbn. split; [adv|]. split; [exact A|]. apply same_kind_refl; auto. }
  destruct (isk t) eqn:T; [|reflexivity].
  eapply post_bind; [apply R; lia|]. intros [[k p2] st2] [C [TK _]]. unfold dadv in C; cbn in C, TK.
  assert (key_ok acc k = true) as KO.
  { destruct acc; auto; cbn; (destruct (val_key k) eqn:V; [reflexivity|]); exfalso; apply (TK (K t T)); reflexivity. }
  rewrite KO. cbn [negb].
  eapply post_bind; [apply value_post; lia|]. intros [[v p3] st3] D. unfold dadv in D; cbn in D.
  eapply post_bind; [apply put_safe; auto|]. intros acc' [A' SK].
  eapply post_weaken; [apply IH; auto; try lia|].
  - destruct acc, acc'; cbn in SK; try contradiction; auto.
  - intros [[[a m] p4] st4] [E [G SK2]]. unfold dadv in *; cbn in *. split; [lia|]. split; [exact G|].
    eapply same_kind_trans; eauto.
Qed.
Lemma members_post : forall f pos acc n st, f <= fuel -> len - pos < f -> set_ok acc ->
  post (dadv (S pos)) (dec_members data rec f pos acc n st).
Proof.
  induction f as [|f IH]; intros pos acc n st LE F A; [lia|]. cbn [dec_members].
  eapply post_bind; [apply tag_post|]. intros [t p] B. unfold adv1 in B; cbn in B.
  destruct (stag_eqb t kEndJSSet); [adv|].
  eapply post_bind; [apply R; lia|]. intros [[v p2] st2] [C _]. unfold dadv in C; cbn in C.
  eapply post_bind; [apply put_member_safe; auto|]. intros acc' A'.
  eapply post_weaken; [apply IH; auto; try lia|]. adv.
Qed.
Lemma elems_post count : forall f i pos acc st, f <= fuel -> len - pos < f -> pos <= len -> acc_ok acc ->
  post (fun x => dadv pos x /\ acc_ok (fst (fst x)) /\ same_kind acc (fst (fst x)))
       (dec_elems cfg data rec f count i pos acc st).
Proof.
  induction f as [|f IH]; intros i pos acc st LE F L A; [lia|]. cbn [dec_elems].
  destruct (i =? count)%N.
  { cbn. split; [adv|]. split; [exact A|]. apply same_kind_refl; auto. }
  eapply post_bind; [apply value_post; lia|]. intros [[v p] st2] B. unfold dadv in B; cbn in B.
  eapply post_bind; [apply put_safe; auto|].
  { destruct acc; reflexivity. }
  intros acc' [A' SK]. eapply post_weaken; [apply IH; auto; lia|].
  intros [[a p4] st4] [E [G SK2]]. unfold dadv in *; cbn in *. split; [lia|]. split; [exact G|].
  eapply same_kind_trans; eauto.
Qed.
Definition emptyish_ok : acc_ok (OMap []) /\ set_ok (OSet []) /\ acc_ok (OObject jo_empty) /\ acc_ok (OArray jo_empty).
Proof.
  split; [apply cinv_nil|]. split; [apply cinv_nil|]. split; exists []; apply rep_empty.
Qed.
Lemma pairs_post' isk endt f pos acc n st : f <= fuel -> len - pos < f -> acc_ok acc ->
  (match acc with OMap _ => True | _ => forall t, isk t = true -> is_object_key t = true end) ->
  post (dadv (S pos)) (dec_pairs cfg data rec isk endt f pos acc n st).
Proof. intros. eapply post_weaken; [apply pairs_post; auto|]. intros x [H3 _]. exact H3. Qed.

Lemma map_post pos st : len - pos < fuel -> post (dadv pos) (dec_map cfg data rec fuel pos st).
Proof.
  intros F. unfold dec_map. cbn [alloc_rec alloc]. eapply post_bind.
  { apply pairs_post'; auto. apply emptyish_ok. }
  intros [[[a n] p] st2] B. eapply post_bind; [apply count_post|]. intros q C. cbn beta in C. adv.
Qed.
Lemma set_post pos st : len - pos < fuel -> post (dadv pos) (dec_set data rec fuel pos st).
Proof.
  intros F. unfold dec_set. cbn [alloc_rec alloc]. eapply post_bind.
  { apply members_post; auto. apply emptyish_ok. }
  intros [[[a n] p] st2] B. eapply post_bind; [apply count_post|]. intros q C. cbn beta in C. adv.
Qed.
Lemma object_post pos st : len - pos < fuel -> post (dadv pos) (dec_object cfg data rec fuel pos st).
Proof.
  intros F. unfold dec_object. cbn [alloc_rec alloc]. eapply post_bind.
  { apply pairs_post'; auto. apply emptyish_ok. }
  intros [[[a n] p] st2] B. eapply post_bind; [apply count_post|]. intros q C. cbn beta in C. adv.
Qed.
Lemma dense_post pos st : len - pos < fuel -> post (dadv pos) (dec_dense cfg data rec fuel pos st).
Proof.
  intros F. unfold dec_dense. cbn [alloc_rec alloc].
  eapply post_bind; [apply varint_post|]. intros [n p] B. unfold adv1 in B. cbn [snd] in B.
  eapply post_bind. { apply elems_post; auto; try lia. apply emptyish_ok. }
  intros [[a p2] st2] [C [D E]]. unfold dadv in C. cbn [fst snd] in *.
  eapply post_bind. { apply pairs_post'; auto; [lia|]. destruct a; auto; contradiction. }
  intros [[[a2 n2] p3] st3] G. unfold dadv in G. cbn [fst snd] in *.
  eapply post_bind; [apply count_post|]. intros q H. cbn beta in H.
  eapply post_bind; [apply count_post|]. intros q2 I. cbn beta in I. adv.
Qed.
Lemma sparse_post pos st : len - pos < fuel -> post (dadv pos) (dec_sparse cfg data rec fuel pos st).
Proof.
  intros F. unfold dec_sparse. cbn [alloc_rec alloc].
  eapply post_bind; [apply varint_post|]. intros [n p] B. unfold adv1 in B. cbn [snd] in B.
  eapply post_bind with (P := fun a => acc_ok a /\ same_kind (OArray jo_empty) a).
  { destruct (0 <? n)%N; [|split; [apply emptyish_ok|exact I]]. apply put_safe; [apply emptyish_ok|reflexivity]. }
  intros a [D E].
  eapply post_bind. { apply pairs_post'; auto; [lia|]. destruct a; auto; contradiction. }
  intros [[[a2 n2] p3] st3] G. unfold dadv in G. cbn [fst snd] in *.
  eapply post_bind; [apply count_post|]. intros q H. cbn beta in H.
  eapply post_bind; [apply count_post|]. intros q2 I. cbn beta in I. adv.
Qed.
End Rec.

Lemma typed_not t v : tag_in t JS_OBJECT_KEY_TAGS = false -> tag_in t JS_STRING_TAGS = false -> typed t v.
Proof. intros A B. split; congruence. Qed.
Lemma typed_str t s : typed t (VStr s).
Proof. split; [discriminate|eauto]. Qed.
Lemma typed_num t v : tag_in t JS_STRING_TAGS = false -> val_key v <> None -> typed t v.
Proof. intros A B. split; [auto|congruence]. Qed.

Lemma dec_safe : forall fuel, rec_safe fuel (dec cfg data version fuel).
Proof.
  induction fuel as [|f IH]; intros t pos st L F; [lia|].
  assert (forall m, tag_in t JS_OBJECT_KEY_TAGS = false -> tag_in t JS_STRING_TAGS = false -> post (dadv pos) m ->
    post (fun x => dadv pos x /\ typed t (fst (fst x))) m) as NT.
  { intros m A B H. eapply post_weaken; [exact H|]. intros x D. split; [exact D|apply typed_not; auto]. }
  destruct t; cbn [dec]; try reflexivity;
    try (apply NT; [reflexivity|reflexivity|cbn [post dec_wrapped]; adv]);
    try (apply NT; [reflexivity|reflexivity|]).
  - eapply post_bind; [apply int32_post|]. intros [z p] A.
    split; [adv|]. apply typed_num; [reflexivity|discriminate].
  - eapply post_bind; [apply uint32_post|]. intros [z p] A.
    split; [adv|]. apply typed_num; [reflexivity|discriminate].
  - eapply post_bind; [apply double_post|]. intros [z p] A.
    split; [adv|]. apply typed_num; [reflexivity|discriminate].
  - eapply post_bind; [apply bigint_post|]. intros [z p] A. adv.
  - eapply post_bind; [apply utf8_post|]. intros [z p] A. split; [adv|apply typed_str].
  - eapply post_bind; [apply onebyte_post|]. intros [z p] A. split; [adv|apply typed_str].
  - eapply post_bind; [apply twobyte_post|]. intros [z p] A. split; [adv|apply typed_str].
  - apply reference_post.
  - apply object_post; auto; lia.
  - apply sparse_post; auto; lia.
  - apply dense_post; auto; lia.
  - apply date_post.
  - eapply post_bind; [apply double_post|]. intros [z p] A.
    split; [adv|]. apply typed_num; [reflexivity|discriminate].
  - eapply post_bind; [apply bigint_post|]. intros [z p] A. cbn [post dec_wrapped]. adv.
  - eapply post_bind; [apply utf8_post|]. intros [z p] A. split; [adv|apply typed_str].
  - apply regexp_post with (fuel := f); auto; lia.
  - apply map_post; auto; lia.
  - apply set_post; auto; lia.
  - apply plain_post.
  - apply resizable_post.
  - apply buffer_id_post.
  - apply buffer_id_post.
  - eapply post_bind; [apply uint32_post|]. intros [z p] A. cbn [post alloc_rec alloc]. adv.
  - destruct (c_host cfg); [apply host_post|reflexivity].
  - apply error_post with (fuel := f); auto; lia.
Qed.
End Dec.

Lemma header_post data : post (adv1 data 0) (read_header data 0).
Proof.
  unfold read_header. eapply post_bind; [apply tag_post|]. intros [t p] A.
  destruct (stag_eqb t kVersion); [cbn [guard bind]|reflexivity].
  eapply post_bind; [apply varint_post|]. intros [v p2] B.
  repeat match goal with |- context [if ?b then _ else _] => destruct b end; try reflexivity.
  unfold adv1 in *. cbn [snd post] in *. lia.
Qed.
Theorem loads_safe depth cfg data : (length data < depth)%nat ->
  post (fun x => (0 < snd (fst x) <= length data)%nat) (loads_depth depth cfg data).
Proof.
  intros D. unfold loads_depth. eapply post_bind; [apply header_post|]. intros [version p] A. unfold adv1 in A. cbn [snd] in A.
  eapply post_bind.
  - eapply value_post; [apply dec_safe|lia].
  - intros [[v q] st] B. unfold dadv in B. cbn [post fst snd] in *. lia.
Qed.
