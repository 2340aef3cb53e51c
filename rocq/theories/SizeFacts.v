(** The size of what the encoder writes. *)
From Coq Require Import List NArith ZArith Bool Lia ZifyBool ZifyNat ZifyN.
From Verif Require Import Base Dict ModelTags ModelPrim SpecPrim PrimFacts PrimFacts2 PrimFacts3 SpecNumber ModelLog LogFacts
  ModelArray SpecArray ArrayFacts ArrayFacts3 ModelValue ValueFacts KeyFacts ModelObject SpecObject ObjectFacts ModelMap MapFacts ModelBuffer BufferFacts ModelHeap SpecWire
  ModelDecode ModelEncode HashFacts SpecEncode DoubleFacts EncodeFacts EncodeFacts2 EncodeFacts3 SpecSize.
Import ListNotations.
Open Scope N_scope.

(** * Widths *)
Lemma width_pos n : 1 <= width n.
Proof. unfold width. lia. Qed.
Lemma size_step n : 128 <= n -> N.size n = N.size (n / 128) + 7.
Proof.
  intros L. assert (1 <= n / 128) by (apply N.div_le_lower_bound; lia).
  rewrite !N.size_log2 by lia. change 128 with (2 ^ 7). rewrite <- N.shiftr_div_pow2, N.log2_shiftr.
  assert (7 <= N.log2 n) by (apply N.log2_le_pow2; [lia|]; change (2 ^ 7) with 128; lia). lia.
Qed.
Lemma size_mono a b : a <= b -> N.size a <= N.size b.
Proof.
  intros L. destruct (N.eq_dec a 0) as [->|]; [cbn; lia|]. rewrite !N.size_log2 by lia.
  pose proof (N.log2_le_mono _ _ L). lia.
Qed.
Lemma width_mono a b : a <= b -> width a <= width b.
Proof.
  intros L. apply size_mono in L. unfold width.
  assert ((N.size a + 6) / 7 <= (N.size b + 6) / 7) by (apply N.div_le_mono; lia). lia.
Qed.
Lemma varint_width n : lenN (varint_bytes n) = width n.
Proof.
  induction n as [n L|n L IH] using varint_ind; rewrite varint_bytes_eq.
  - destruct (N.ltb_spec n 128); [|lia]. unfold width.
    assert (N.size n <= N.size 127) by (apply size_mono; lia). change (N.size 127) with 7 in *.
    assert ((N.size n + 6) / 7 < 2) by (apply N.div_lt_upper_bound; lia).
    change (lenN [n]) with 1. lia.
  - destruct (N.ltb_spec n 128); [lia|]. rewrite lenN_cons, IH. unfold width. rewrite (size_step n) by lia.
    replace (N.size (n / 128) + 7 + 6) with (N.size (n / 128) + 6 + 1 * 7) by lia. rewrite N.div_add by lia.
    assert (1 <= n / 128) by (apply N.div_le_lower_bound; lia).
    assert (1 <= N.size (n / 128)) by (rewrite N.size_log2 by lia; lia).
    assert (1 <= (N.size (n / 128) + 6) / 7) by (apply N.div_le_lower_bound; lia). lia.
Qed.
Lemma width_small n k : n < 128 ^ N.of_nat k -> (0 < k)%nat -> width n <= N.of_nat k.
Proof. intros L P. rewrite <- varint_width. unfold lenN. pose proof (varint_length n k L P). lia. Qed.
Lemma width32 n : n < 2 ^ 32 -> width n <= 5.
Proof. intros L. apply (width_small n 5); [|lia]. change (128 ^ N.of_nat 5) with 34359738368. change (2 ^ 32) with 4294967296 in L. lia. Qed.
Lemma uint32_size z bs : uint32_bytes z = Ok bs -> lenN bs <= 5.
Proof.
  intros E. pose proof (uint32_wire _ _ E) as ((_ & L & _) & _). unfold lenN. lia.
Qed.
Lemma int32_size z bs : int32_bytes z = Ok bs -> lenN bs <= 5.
Proof. intros E. pose proof (int32_wire _ _ E) as (_ & (_ & L & _)). unfold lenN. lia. Qed.
Lemma utf8_of_size c b : utf8_of c b -> lenN b = char_size c.
Proof.
  unfold char_size. intros U. inversion U; subst; unfold lenN; cbn [length];
    repeat match goal with |- context [?a <? ?b] => destruct (N.ltb_spec a b) end; try lia;
    match goal with X : scalar _ |- _ => destruct X; lia end.
Qed.
Lemma utf8_string_size s b : utf8_string s b -> lenN b = utf8_size s.
Proof.
  induction 1 as [|c s b bs U E IH]; [reflexivity|]. rewrite lenN_app, IH, (utf8_of_size _ _ U). reflexivity.
Qed.
Lemma utf8_payload_size s bs : Forall code_point s -> utf8_payload s = Ok bs -> 1 + lenN bs = text s.
Proof.
  intros Hs E. unfold utf8_payload in E. apply bind_Ok in E as [e [E1 E]]. injection E as <-.
  pose proof (utf8_encode_spec s Hs e E1) as U. apply utf8_string_size in U. unfold lp, text.
  rewrite lenN_app, varint_width, U. lia.
Qed.
Lemma bigint_size z bs : bigint_bytes z = Ok bs -> 1 + lenN bs <= int_size z.
Proof.
  unfold bigint_bytes, int_size, bit_length. cbv zeta. set (s := N.size (Z.abs_N z)). replace (s + 8) with (s + 1 * 8) by lia. rewrite N.div_add by lia.
  set (k := s / 8). destruct (N.ltb_spec 30 (N.size (k + 1))); [discriminate|]. apply size_le_30 in H. rewrite lor1. intros [= <-].
  rewrite lenN_app, varint_width. unfold lenN. rewrite le_bytes_length, N2Nat.id.
  assert (width (2 * (k + 1) + (if (z <? 0)%Z then 1 else 0)) <= 5).
  { apply width32. change (2 ^ 30) with 1073741824 in H. change (2 ^ 32) with 4294967296. destruct (z <? 0)%Z; lia. }
  lia.
Qed.
Lemma double_size b : lenN (double_bytes b) = 8.
Proof. unfold double_bytes, lenN. rewrite le_bytes_length. reflexivity. Qed.
Lemma sum_app a b : sum (a ++ b) = sum a + sum b.
Proof. induction a as [|x a IH]; [reflexivity|]. cbn [app sum]. lia. Qed.

Lemma sum_snoc a b : sum (a ++ [b]) = sum a + b.
Proof. rewrite sum_app. cbn [sum]. lia. Qed.

Section Sizes.
Variable H : heap.
Variable cfg : ecfg.
Variable node : bool.
Variable root : val.
Hypothesis WF : wf_graph H cfg root.
Notation feat := (e_features cfg).
Notation occ := (occurs H root).
Notation st_ok := (st_ok H true root).
Notation item := (item H node).
Notation items := (items H node).
Notation object := (object H node).
Notation content := (content H node).
Definition wsum (r : list nat) : N := sum (map object r).
Definition inheap (r : list nat) : Prop := Forall (fun o => occ (VRef o)) r.

Lemma wsum_snoc r o : wsum (r ++ [o]) = wsum r + object o.
Proof. unfold wsum. rewrite map_app. apply sum_snoc. Qed.
Lemma items_cons v l : items (v :: l) = item v + items l.
Proof. reflexivity. Qed.
Lemma items_app a b : items (a ++ b) = items a + items b.
Proof. unfold SpecSize.items. rewrite map_app. apply sum_app. Qed.
Lemma object_eq o x : nth_error H o = Some x -> object o = content x.
Proof. intros E. unfold SpecSize.object. rewrite E. reflexivity. Qed.
Lemma inheap_snoc r o : inheap r -> occ (VRef o) -> inheap (r ++ [o]).
Proof. intros I' E. apply Forall_app. split; auto. Qed.

(** the objects recorded are determined by the log *)
Lemma log_inj l r r2 open open2 : logrel true l r open -> logrel true l r2 open2 -> r = r2.
Proof.
  intros A B. destruct (A eq_refl) as (La & _ & _ & Ia & Ea), (B eq_refl) as (Lb & _ & _ & Ib & Eb).
  apply nth_ext with (d := O) (d' := O); [congruence|]. intros i Li.
  destruct (nth_error r i) as [o|] eqn:E; [|apply nth_error_None in E; lia].
  destruct (Ea _ _ E) as (D & _). assert (In o r2) as I2.
  { destruct (in_dec Nat.eq_dec o r2) as [|N2]; auto. apply Ib in N2. congruence. }
  apply In_nth_error in I2 as [j Ej]. destruct (Eb _ _ Ej) as (D2 & _). rewrite D in D2. injection D2 as ->.
  rewrite (nth_error_nth _ _ O E), (nth_error_nth _ _ O Ej). reflexivity.
Qed.

(** * What a writer adds *)
Definition small_key (k : val) : Prop := match k with VStr _ => True | VInt z => (0 <= z < 2 ^ 32)%Z | _ => False end.
Definition adds (n : N) (r : list nat) (open : list nat) (bs : bytes) (st' : est) : Prop :=
  exists r', st_ok st' r' open /\ inheap r' /\ lenN bs + wsum r <= n + wsum r'.
Definition sized (enc : val -> W) : Prop :=
  (forall v st r open bs st', occ v -> st_ok st r open -> inheap r -> enc v st = Ok (bs, st') -> adds (item v) r open bs st') /\
  (forall k st r open bs st', small_key k -> occ k -> st_ok st r open ->
     enc k (set_allowed st (Some KeyTags)) = Ok (bs, st') -> lenN bs <= item k /\ st_ok (set_allowed st' None) r open).

Lemma adds_trans n m r open x s1 y s2 (E : forall r1, st_ok s1 r1 open -> inheap r1 -> adds m r1 open y s2) :
  adds n r open x s1 -> adds (n + m) r open (x ++ y) s2.
Proof.
  intros (r1 & S1 & I1 & L1). destruct (E r1 S1 I1) as (r2 & S2 & I2 & L2). exists r2. split; auto. split; auto.
  rewrite lenN_app. lia.
Qed.

Section Loops.
Variable enc : val -> W.
Hypothesis SZ : sized enc.

Lemma values_size l : forall st r open bs st', Forall occ l -> st_ok st r open -> inheap r -> w_values enc l st = Ok (bs, st') ->
  adds (items l) r open bs st'.
Proof.
  induction l as [|v l IH]; intros st r open bs st' Fl So Ih E; cbn [w_values] in E.
  - winv. exists r. split; auto. split; auto. change (lenN (@nil N)) with 0. lia.
  - apply w_seq_Ok in E as (x & s1 & y & E1 & E & ->). apply Forall_cons_iff in Fl as [Ov Ol]. rewrite items_cons.
    apply adds_trans with (s1 := s1); [|eapply (proj1 SZ); eauto]. intros r1 S1 I1. eapply IH; eauto.
Qed.
Lemma items_size l : forall st r open bs st', Forall occ (flat l) -> st_ok st r open -> inheap r -> w_items enc enc l st = Ok (bs, st') ->
  adds (items (flat l)) r open bs st'.
Proof.
  induction l as [|[k v] l IH]; intros st r open bs st' Fl So Ih E; cbn [w_items] in E.
  - winv. exists r. split; auto. split; auto. change (lenN (@nil N)) with 0. lia.
  - apply w_seq_Ok in E as (x & s1 & y & E1 & E & ->). apply w_seq_Ok in E as (x2 & s2 & y2 & E2 & E & ->).
    cbn [flat flat_map fst snd app] in *. apply Forall_cons_iff in Fl as [Ok_ Fl]. apply Forall_cons_iff in Fl as [Ov Ol].
    rewrite !items_cons. apply adds_trans with (s1 := s1); [|eapply (proj1 SZ); eauto]. intros r1 S1 I1.
    apply adds_trans with (s1 := s2); [|eapply (proj1 SZ); eauto]. intros r2 S2 I2. eapply IH; eauto.
Qed.
Lemma props_size l : forall st r open bs st', Forall (fun p => small_key (fst p)) l -> Forall occ (flat l) -> st_ok st r open -> inheap r ->
  w_items (fun k => constrained KeyTags (enc k)) enc l st = Ok (bs, st') -> adds (items (flat l)) r open bs st'.
Proof.
  induction l as [|[k v] l IH]; intros st r open bs st' Fk Fl So Ih E; cbn [w_items] in E.
  - winv. exists r. split; auto. split; auto. change (lenN (@nil N)) with 0. lia.
  - apply w_seq_Ok in E as (x & s1 & y & E1 & E & ->). apply w_seq_Ok in E as (x2 & s2 & y2 & E2 & E & ->).
    cbn [flat flat_map fst snd app] in *. apply Forall_cons_iff in Fl as [Ok_ Fl]. apply Forall_cons_iff in Fl as [Ov Ol].
    apply Forall_cons_iff in Fk as [Kk Kl]. cbn [fst] in Kk.
    unfold constrained in E1. apply bind_Ok in E1 as [[x0 s0] [E1 E1']]. injection E1' as <- <-.
    destruct (proj2 SZ _ _ _ _ _ _ Kk Ok_ So E1) as (L1 & S1).
    rewrite !items_cons. apply adds_trans with (s1 := set_allowed s0 None).
    + intros r1 S1' I1. apply adds_trans with (s1 := s2); [|eapply (proj1 SZ); eauto]. intros r2 S2 I2. eapply IH; eauto.
    + exists r. split; auto. split; auto. lia.
Qed.

(** * The last step *)
Lemma entry_values l : forall j, items (map of_elem l) + lenN (entries_from j l) = items (map snd (entries_from j l)) + lenN l /\
  count_used l = Z.of_N (lenN (entries_from j l)).
Proof.
  induction l as [|[v|] l IH]; intros j; [split; reflexivity| |]; destruct (IH (j + 1)%Z) as [A B]; cbn [entries_from map of_elem snd];
    rewrite ?items_cons, ?lenN_cons, count_used_cons, B; cbn [is_some]; split; try lia.
  change (item VHole) with 1. lia.
Qed.
Lemma index_items l : items (map snd l) <= items (flat (map (fun p : Z * val => (VInt (fst p), snd p)) l)).
Proof.
  induction l as [|[i v] l IH]; [reflexivity|]. cbn [map flat flat_map fst snd app]. rewrite !items_cons.
  change (flat_map (fun p : val * val => [fst p; snd p]) ?l) with (flat l). lia.
Qed.
Lemma dense_size (x : jsobj val) : arr_ok (jo_arr x) -> sparse_is_smaller (jo_arr x) = false ->
  items (elements x) + items (flat (named_items x)) <= 4 * lenN (own_items x) + items (flat (own_items x)).
Proof.
  intros A E. unfold sparse_is_smaller in E. rewrite arr_used_eq, arr_len_eq in E by auto.
  unfold elements, own_items. destruct (entry_values (aabs (jo_arr x)) 0) as [B C]. rewrite C in E.
  rewrite flat_app, items_app, lenN_app. pose proof (index_items (entries_from 0 (aabs (jo_arr x)))) as D.
  set (e := entries_from 0 (aabs (jo_arr x))) in *. unfold lenN at 1. rewrite map_length. fold (lenN e).
  assert (lenN (aabs (jo_arr x)) <= 5 * lenN e).
  { unfold ModelArray.zlen in E. unfold lenN at 1. destruct (_ <? 2 ^ 14)%Z in E; lia. }
  lia.
Qed.
Lemma own_small (x : jsobj val) : wf_jsobj x -> Forall (fun p => small_key (fst p)) (own_items x).
Proof.
  intros (_ & _ & _ & _ & _ & L). unfold own_items, named_items. apply Forall_app. split; apply Forall_forall; intros p Hp;
    apply in_map_iff in Hp as ([q v] & <- & Hq); [|exact I]. cbn [fst small_key]. apply entries_from_in in Hq as [Q1 Q2].
  assert (Z.to_nat (q - 0) < length (aabs (jo_arr x)))%nat by (apply nth_error_Some; congruence).
  unfold lenN in L. change (2 ^ 32) with 4294967296 in L. change (2 ^ 32)%Z with 4294967296%Z. lia.
Qed.
Lemma named_small (x : jsobj val) : Forall (fun p => small_key (fst p)) (named_items x).
Proof. unfold named_items. apply Forall_forall. intros p Hp. apply in_map_iff in Hp as (q & <- & _). exact I. Qed.

Lemma int_size_ok z st bs st' : es_allowed st = None \/ (0 <= z < 2 ^ 32)%Z -> serialize_int z st = Ok (bs, st') -> lenN bs <= int_size z /\ st' = st.
Proof.
  intros A E. unfold serialize_int in E. assert (I9 : 9 <= int_size z) by (unfold int_size; lia).
  destruct (in_uint32 z) eqn:U.
  - unfold write_uint32 in E. apply bind_Ok in E as [p [Ep E]]. winv. apply uint32_size in Ep. cbn [app]. rewrite lenN_cons. split; auto. lia.
  - destruct (in_int32 z).
    + unfold write_int32 in E. apply bind_Ok in E as [p [Ep E]]. winv. apply int32_size in Ep. cbn [app]. rewrite lenN_cons. split; auto. lia.
    + destruct (in_safe_int z).
      * unfold write_double in E. winv. cbn [app]. rewrite lenN_cons, double_size. split; auto.
      * destruct A as [A|A]; [|unfold in_uint32 in U; change (2 ^ 32)%Z with 4294967296%Z in A; lia].
        rewrite A in E. unfold write_bigint in E. apply bind_Ok in E as [p [Ep E]]. winv. apply bigint_size in Ep.
        cbn [app]. rewrite lenN_cons. split; auto.
Qed.
Lemma utf8_size_ok s st bs st' : Forall code_point s -> write_utf8 s st = Ok (bs, st') -> lenN bs = text s /\ st' = st.
Proof.
  intros A E. unfold write_utf8 in E. apply bind_Ok in E as [p [Ep E]]. winv. apply utf8_payload_size in Ep; auto.
  cbn [app]. rewrite lenN_cons. auto.
Qed.
Lemma field_size e x st bs st' : opt_all (Forall code_point) x ->
  w_opt (fun m => w_seq (w_varint (etag_byte e)) (write_utf8 m)) x st = Ok (bs, st') -> lenN bs <= field x /\ st' = st.
Proof.
  intros Ha E. destruct x as [s|]; cbn [w_opt field] in *; [|winv; split; auto; change (lenN (@nil N)) with 0; lia].
  apply w_seq_Ok in E as (x & s1 & y & E1 & E & ->). apply w_varint_Ok in E1 as [-> ->].
  apply utf8_size_ok in E as [E ->]; auto. rewrite lenN_app, E. split; auto.
  replace (lenN (varint_bytes (etag_byte e))) with 1 by (destruct e; reflexivity). lia.
Qed.
Lemma proto_size n st bs st' : w_opt (fun t => w_varint (etag_byte t)) (ename_tag n) st = Ok (bs, st') -> lenN bs <= 1 /\ st' = st.
Proof. destruct n; cbn [ename_tag w_opt]; intros E; winv; (split; [|auto]); vm_compute; discriminate. Qed.

(** the cause of an error *)
Lemma cause_size o c st r open bs st' : occ c -> st_ok st r open -> inheap r -> ~ In o r -> occ (VRef o) ->
  enc_ok H cfg true node root enc ->
  (if f_circular feat then w_seq (w_record o) (enc c) else w_acyclic o (enc c)) st = Ok (bs, st') ->
  exists r', st_ok st' r' open /\ inheap r' /\ lenN bs + wsum (r ++ [o]) <= item c + wsum r'.
Proof.
  intros Oc So Ih F Hx EO E. pose proof E as E0. apply (cause_ok H cfg true node root enc EO o c _ r open) in E0 as (w & r2 & D & _ & So'); auto; [|intros _; exact F].
  exists r2. split; auto. destruct (f_circular feat).
  - apply w_seq_Ok in E as (x1 & s1 & y & E1 & E & ->). apply w_record_Ok in E1 as [-> ->].
    destruct (proj1 SZ _ _ (r ++ [o]) open _ _ Oc (st_record _ _ _ _ _ _ _ So (fun _ => F)) (inheap_snoc _ _ Ih Hx) E) as (r' & S1 & I1 & L1).
    rewrite (log_inj _ _ _ _ _ (proj1 So') (proj1 S1)). split; auto.
  - unfold w_acyclic in E. rewrite open_acyclic_eq in E. apply acyclic_Ok in E. apply bind_Ok in E as [[x1 s1] [E1 E]]. injection E as <- <-.
    pose proof So as (L & S' & A).
    assert (So1 : st_ok (set_log st (mkLog (dset Nat.eqb (pyid o) (length (log_entries (es_log st))) (log_ids (es_log st))) (log_entries (es_log st) ++ [EFwd None])))
                    (r ++ [o]) (o :: open)).
    { split; [|split; auto]. cbn [es_log set_log]. apply (logrel_add true _ _ _ o (EFwd None)); auto. intros _; exact F. }
    destruct (proj1 SZ _ _ (r ++ [o]) (o :: open) _ _ Oc So1 (inheap_snoc _ _ Ih Hx) E1) as (r' & S1 & I1 & L1).
    destruct (proj1 EO _ _ _ _ _ _ Oc So1 E1) as (w1 & r3 & D1 & _ & S3).
    rewrite (log_inj _ _ _ _ _ (proj1 S1) (proj1 S3)) in *.
    destruct (proj1 (describes_ext H cfg true node root) _ _ _ _ _ _ D1) as [d Ed].
    assert (CL : logrel true (log_set_forward (es_log s1) (length (log_entries (es_log st))) o) r3 open).
    { destruct (L eq_refl) as (Ln & _). apply logrel_close; [apply S3|eapply fresh_open; [exact So|intros _; exact F]|].
      rewrite Ed, <- app_assoc, nth_error_app2 by lia. rewrite Ln, Nat.sub_diag. reflexivity. }
    rewrite (log_inj _ _ _ _ _ (proj1 So') CL). split; auto.
Qed.

Lemma flat_len l : lenN (flat l) = 2 * lenN l.
Proof.
  induction l as [|[k v] l IH]; [reflexivity|]. cbn [flat flat_map fst snd app]. rewrite !lenN_cons.
  change (flat_map (fun p : val * val => [fst p; snd p]) l) with (flat l). lia.
Qed.
Lemma arr_lenN (x : jsobj val) : arr_ok (jo_arr x) -> Z.to_N (arr_len (jo_arr x)) = lenN (elements x).
Proof. intros A. rewrite arr_len_eq by auto. unfold ModelArray.zlen, elements, lenN. rewrite map_length. lia. Qed.
Ltac lens := cbn [app] in *; repeat first [rewrite lenN_app|rewrite lenN_cons|rewrite varint_width|rewrite double_size]; change (lenN (@nil N)) with 0 in *.
Hypothesis EO : enc_ok H cfg true node root enc.

Lemma tagwriter_size next v st r open bs st' : occ v -> st_ok st r open -> inheap r ->
  (forall o, v = VRef o -> ~ In o r) ->
  deduplicate H v st = (v, st) ->
  (forall st x, next v st <> Ok x) ->
  step_tagwriter H cfg enc v next st = Ok (bs, st') -> adds (item v) r open bs st'.
Proof.
  intros O So Ih Fr Dd Nx E. pose proof (WF v O) as Wv.
  destruct v as [| | |b|z|b|s|o]; cbn [step_tagwriter] in E.
  1-4: unfold write_constant, constrained in E; apply bind_Ok in E as [[x s1] [E1 E]]; injection E as <- <-; apply w_tag_Ok in E1 as (-> & -> & _);
    exists r; (split; [|split; auto; lens; cbn [SpecSize.item]; lia]); pose proof So as (L & S' & A); split; auto.
  - apply int_size_ok in E as [E ->]; [|left; apply So]. exists r. split; auto. split; auto. cbn [SpecSize.item]. lia.
  - unfold write_double in E. winv. exists r. split; auto. split; auto. lens. cbn [SpecSize.item]. lia.
  - apply utf8_size_ok in E as [E ->]; auto. exists r. split; auto. split; auto. cbn [SpecSize.item]. lia.
  - specialize (Fr o eq_refl). destruct Wv as (x & Hx & Wx). rewrite Hx in E.
    assert (Rec : st_ok (set_log st (snd (log_record pyid (es_log st) o))) (r ++ [o]) open) by (apply st_record; auto; intros _; exact Fr).
    pose proof (inheap_snoc _ _ Ih O) as Ih1.
    assert (Leaf : st' = set_log st (snd (log_record pyid (es_log st) o)) -> lenN bs <= content x -> adds (item (VRef o)) r open bs st').
    { intros -> L. exists (r ++ [o]). split; auto. split; auto. rewrite wsum_snoc, (object_eq _ _ Hx). lia. }
    assert (Node : forall n y s1, adds n (r ++ [o]) open y s1 -> st' = s1 -> lenN bs + n <= lenN y + content x -> adds (item (VRef o)) r open bs st').
    { intros n y s1 (r' & S1 & I1 & L1) -> L. exists r'. split; auto. split; auto. rewrite wsum_snoc, (object_eq _ _ Hx) in L1. lia. }
    destruct x as [m|m|x|x|s f|n m s c|t x|d|b|id|id|b w|id|l|l|t l|d|d|]; cbn [wf_obj] in Wx.
    + (* OMap *)
      rewrite jm_items_spec in E by auto. cbn [w_with] in E. unfold write_jsmap in E. winv.
      match goal with X : w_items _ _ _ _ = _ |- _ => apply (items_size (map snd m) _ (r ++ [o]) open) in X; auto end;
        [|apply (occ_children H root o _ _ O Hx (incl_refl _))].
      eapply Node; [eassumption|reflexivity|]. lens. cbn [SpecSize.content children]. rewrite flat_len. unfold count. lia.
    + (* OSet *)
      unfold write_jsset, js_iter in E. winv.
      match goal with X : w_values _ _ _ = _ |- _ => apply (values_size (map snd m) _ (r ++ [o]) open) in X; auto end;
        [|apply (occ_children H root o _ _ O Hx (incl_refl _))].
      eapply Node; [eassumption|reflexivity|]. lens. cbn [SpecSize.content children]. unfold count. lia.
    + (* OObject *)
      rewrite jo_items_spec in E by auto. cbn [w_with] in E. unfold write_js_object, write_properties in E. winv.
      match goal with X : w_items _ _ _ _ = _ |- _ => apply (props_size (own_items x) _ (r ++ [o]) open) in X; auto using own_small end;
        [|apply (occ_children H root o _ _ O Hx (incl_refl _))].
      eapply Node; [eassumption|reflexivity|]. lens. cbn [SpecSize.content children]. unfold count. rewrite flat_len.
      pose proof (width_mono (lenN (own_items x)) (2 * lenN (own_items x))). lia.
    + (* OArray *)
      pose proof (proj1 Wx) as Ha. unfold serialize_js_array in E. destruct (sparse_is_smaller (jo_arr x)) eqn:Sp.
      * rewrite jo_items_spec in E by auto. cbn [w_with] in E. unfold write_sparse, write_properties in E.
        destruct (_ || _)%bool in E; [discriminate E|]. winv.
        match goal with X : w_items _ _ _ _ = _ |- _ => apply (props_size (own_items x) _ (r ++ [o]) open) in X; auto using own_small end;
          [|apply (occ_children H root o _ _ O Hx); apply incl_appr, incl_refl].
        eapply Node; [eassumption|reflexivity|]. lens. cbn [SpecSize.content]. unfold count. rewrite (arr_lenN x) by auto. lia.
      * rewrite arr_iter_eq in E by auto. cbn [w_with] in E. unfold write_dense in E. winv.
        match goal with X : w_values _ _ _ = _ |- _ => apply (values_size (elements x) _ (r ++ [o]) open) in X as (r1 & S1 & I1 & L1); auto end;
          [|apply (occ_children H root o _ _ O Hx); apply incl_appl, incl_refl].
        destruct (N.eqb_spec (count (map of_elem (aabs (jo_arr x)))) (Z.to_N (arr_len (jo_arr x)))) as [Ec|]; winv.
        match goal with X : w_items _ _ _ _ = _ |- _ => apply (props_size (named_items x) _ r1 open) in X as (r2 & S2 & I2 & L2); auto using named_small end;
          [|apply (occ_children H root o _ _ O Hx); apply incl_appr; unfold own_items; rewrite flat_app; apply incl_appr, incl_refl].
        exists r2. split; auto. split; auto. lens. rewrite wsum_snoc, (object_eq _ _ Hx) in L1. cbn [SpecSize.content] in L1.
        pose proof (dense_size x Ha Sp) as DS. rewrite (arr_lenN x) by auto. unfold count. fold (elements x). change (jo_properties x) with (named_items x).
        assert (width (lenN (named_items x)) <= width (lenN (own_items x))) by (apply width_mono; unfold own_items; rewrite lenN_app; lia).
        lia.
    + (* ORegExp *)
      unfold write_regexp in E. apply w_seq_Ok in E as (x1 & s1 & y1 & E1 & E & ->). apply w_tag_Ok in E1 as (-> & -> & _).
      apply w_seq_Ok in E as (x2 & s2 & y2 & E2 & E & ->). apply utf8_size_ok in E2 as [E2 ->]; [|apply Wx]. winv.
      exists r. split; auto. split; auto. lens. cbn [SpecSize.item]. rewrite Hx, E2.
      assert (width (N.land f 511) <= 2).
      { apply (width_small _ 2); [|lia]. change 511 with (N.ones 9). rewrite N.land_ones. change (128 ^ N.of_nat 2) with 16384.
        pose proof (N.mod_upper_bound f (2 ^ 9)). change (2 ^ 9) with 512 in *. lia. }
      lia.
    + (* OError *)
      destruct Wx as [Wm Ws]. unfold write_error in E.
      apply w_seq_Ok in E as (x1 & s1 & y1 & E1 & E & ->). apply w_tag_Ok in E1 as (-> & -> & _).
      apply w_seq_Ok in E as (x2 & s2 & y2 & E2 & E & ->). apply proto_size in E2 as [Wn ->].
      apply w_seq_Ok in E as (x3 & s3 & y3 & E3 & E & ->). apply field_size in E3 as [Wm' ->]; auto.
      apply w_seq_Ok in E as (x4 & s4 & y4 & E4 & E & ->). apply field_size in E4 as [Ws' ->]; auto.
      apply w_seq_Ok in E as (x5 & s5 & y5 & E5 & E & ->). apply w_varint_Ok in E as [-> ->].
      change (varint_bytes (etag_byte eEnd)) with [etag_byte eEnd].
      assert (C : c = VNone \/ c <> VNone) by (destruct c; auto; right; discriminate). destruct C as [->|Nc].
      * winv. exists r. split; auto. split; auto. lens. cbn [SpecSize.item]. rewrite Hx. lia.
      * assert (E5' : w_seq (w_varint (etag_byte eCause)) (if f_circular feat then w_seq (w_record o) (enc c) else w_acyclic o (enc c)) st = Ok (x5, s5))
          by (destruct c; auto; congruence). clear E5.
        apply w_seq_Ok in E5' as (x6 & s6 & y6 & E6 & E5 & ->). apply w_varint_Ok in E6 as [-> ->].
        apply (cause_size o c _ r open) in E5 as (r' & S1 & I1 & L1); auto.
        -- exists r'. split; auto. split; auto. lens. rewrite wsum_snoc, (object_eq _ _ Hx) in L1. cbn [SpecSize.content children] in L1.
           assert (K : items (match c with VNone => [] | _ => [c] end) = item c) by (unfold SpecSize.items; destruct c; cbn [map sum]; try congruence; lia).
           rewrite K in L1. change (width (etag_byte eCause)) with 1. lia.
        -- apply (occ_child_obj H root o _ c O Hx). cbn [children]. destruct c; try congruence; left; auto.
    + (* OPrim *)
      unfold write_primitive in E. winv. apply Leaf; [destruct t; try contradiction; destruct x; try contradiction; winv; auto|].
      destruct t; try contradiction; destruct x as [| | |bb|z|bb|s|]; try contradiction; winv; lens; cbn [SpecSize.content SpecSize.item]; try lia.
      all: match goal with X : bigint_bytes _ = _ |- _ => apply bigint_size in X | X : utf8_payload _ = _ |- _ => apply utf8_payload_size in X; auto | _ => idtac end.
      all: unfold int_size in *; lia.
    + (* ODate *)
      unfold write_date in E. destruct (e_timestamp cfg d) as [b|e] eqn:Ed; [|discriminate]. winv.
      apply Leaf; auto. lens. cbn [SpecSize.content]. lia.
    + (* OBuffer *)
      unfold write_buffer in E. cbv zeta in E.
      assert (Lv : lenN (jsbuf_view b) <= lenN (jb_data b)) by (unfold jsbuf_view, lenN; rewrite firstn_length; lia).
      destruct (jb_resizable b && f_resizable feat).
      * destruct (Z.ltb_spec (jb_max b) (zlen (jsbuf_view b))); [discriminate E|]. winv.
        repeat match goal with X : uint32_bytes _ = Ok _ |- _ => apply uint32_size in X end.
        apply Leaf; auto. lens. cbn [SpecSize.content]. lia.
      * winv. repeat match goal with X : uint32_bytes _ = Ok _ |- _ => apply uint32_size in X end.
        apply Leaf; auto. lens. cbn [SpecSize.content]. lia.
    + unfold write_buffer_id in E. winv. apply Leaf; auto. lens. cbn [SpecSize.content]. apply width32 in Wx. lia.
    + unfold write_buffer_id in E. winv. apply Leaf; auto. lens. cbn [SpecSize.content]. apply width32 in Wx. lia.
    + (* OView *)
      destruct Wx as [Wv (y & Hb & Hy)]. destruct (vtag_beq (vw_tag w) vFloat16 && negb (f_float16 feat)) eqn:F16; [elim (Nx _ _ E)|].
      apply w_seq_Ok in E as (x1 & s1 & y1 & E1 & E & ->).
      assert (Ob : occ (VRef b)) by (apply (occ_child_obj H root o _ _ O Hx); left; auto).
      destruct (proj1 EO _ _ _ _ _ _ Ob So E1) as (wb & r1 & D & _ & So1).
      destruct (proj1 SZ _ _ _ _ _ _ Ob So Ih E1) as (r2 & S2 & I2 & L2).
      rewrite (log_inj _ _ _ _ _ (proj1 S2) (proj1 So1)) in *. clear S2.
      assert (Fr1 : ~ In o r1).
      { destruct (buffer_desc H cfg true node root _ _ _ _ _ _ _ D Hb Hy) as [(id & _ & ->)|(bf & b0 & y0 & _ & Hb0 & Hy0 & Er)]; auto.
        rewrite (Er eq_refl), in_app_iff. intros [C|[C|[]]]; [apply (Fr C)|]. subst b0. rewrite Hx in Hb0. injection Hb0 as <-. exact Hy0. }
      unfold write_view in E. rewrite F16 in E. winv.
      repeat match goal with X : uint32_bytes _ = Ok _ |- _ => apply uint32_size in X end.
      exists (r1 ++ [o]). split; [apply st_record; auto; intros _; exact Fr1|]. split; [apply inheap_snoc; auto|].
      rewrite wsum_snoc, (object_eq _ _ Hx). lens. cbn [SpecSize.content children]. rewrite items_cons. change (items []) with 0.
      assert (width (vtag_byte (vw_tag w)) = 1) by (destruct (vw_tag w); reflexivity).
      assert (width ((if bk_resizable (backing_of H b) then 2 else 0) + (if view_tracking (backing_of H b) w then 1 else 0)) = 1)
        by (destruct (bk_resizable _), (view_tracking _ _); reflexivity).
      lia.
    + (* OSharedRef *)
      unfold write_shared_ref in E. winv. match goal with X : uint32_bytes _ = Ok _ |- _ => apply uint32_size in X end.
      apply Leaf; auto. lens. cbn [SpecSize.content]. lia.
    + (* ODict *)
      unfold write_jsmap in E. winv.
      match goal with X : w_items _ _ _ _ = _ |- _ => apply (items_size l _ (r ++ [o]) open) in X; auto end;
        [|apply (occ_children H root o _ _ O Hx (incl_refl _))].
      eapply Node; [eassumption|reflexivity|]. lens. cbn [SpecSize.content children]. rewrite flat_len. unfold count. lia.
    + (* OPySet *)
      unfold write_jsset in E. winv.
      match goal with X : w_values _ _ _ = _ |- _ => apply (values_size l _ (r ++ [o]) open) in X; auto end;
        [|apply (occ_children H root o _ _ O Hx (incl_refl _))].
      eapply Node; [eassumption|reflexivity|]. lens. cbn [SpecSize.content children]. unfold count. lia.
    + (* OSeq *)
      unfold write_dense in E. winv.
      match goal with X : w_values _ _ _ = _ |- _ => apply (values_size l _ (r ++ [o]) open) in X; auto end;
        [|apply (occ_children H root o _ _ O Hx (incl_refl _))].
      rewrite N.eqb_refl in *. cbn [w_items] in *. winv.
      eapply Node; [eassumption|reflexivity|]. lens. cbn [SpecSize.content children]. unfold count.
      change (width (lenN (@nil (val * val)))) with 1. lia.
    + (* OBytes *)
      unfold serialize_buffer in E. rewrite Dd in E.
      unfold write_buffer in E. cbv zeta in E. cbn [jb_resizable andb] in E.
      assert (Ej : jsbuf_view (mkBuf d (zlen d) false false) = d) by (unfold jsbuf_view, zlen; cbn [jb_max jb_data]; rewrite Nat2Z.id; apply firstn_all).
      rewrite Ej in E. winv. match goal with X : uint32_bytes _ = Ok _ |- _ => apply uint32_size in X end.
      apply Leaf; auto. lens. cbn [SpecSize.content]. lia.
    + (* OByteArray *)
      unfold serialize_buffer in E. rewrite Dd in E.
      unfold write_buffer in E. cbv zeta in E. cbn [jb_resizable andb] in E.
      assert (Ej : jsbuf_view (mkBuf d (zlen d) false false) = d) by (unfold jsbuf_view, zlen; cbn [jb_max jb_data]; rewrite Nat2Z.id; apply firstn_all).
      rewrite Ej in E. winv. match goal with X : uint32_bytes _ = Ok _ |- _ => apply uint32_size in X end.
      apply Leaf; auto. lens. cbn [SpecSize.content]. lia.
    + elim (Nx _ _ E).
Qed.

(** keys of properties *)
Lemma tagwriter_key_size next k st r open bs st' : small_key k -> occ k -> st_ok st r open ->
  step_tagwriter H cfg enc k next (set_allowed st (Some KeyTags)) = Ok (bs, st') -> lenN bs <= item k /\ st_ok (set_allowed st' None) r open.
Proof.
  intros Sk O So E. pose proof (WF k O) as Wk. pose proof So as (L & S' & A). destruct k; try contradiction; cbn [step_tagwriter] in E.
  - apply int_size_ok in E as [E ->]; [|right; exact Sk]. split; auto. split; auto.
  - apply utf8_size_ok in E as [E ->]; auto. split; [cbn [SpecSize.item]; lia|]. split; auto.
Qed.
End Loops.

(** * The chain of steps *)
Notation steps_of := (steps_of H cfg true node).
Lemma node_tail enc v st r open bs st' : sized enc -> enc_ok H cfg true node root enc -> occ v -> st_ok st r open -> inheap r ->
  (forall o, v = VRef o -> ~ In o r) -> deduplicate H v st = (v, st) ->
  chain enc ((if node then [step_node H] else []) ++ [step_tagwriter H cfg]) v st = Ok (bs, st') -> adds (item v) r open bs st'.
Proof.
  intros SZ EO O So Ih Fr Dd E.
  assert (T : step_tagwriter H cfg enc v (chain enc []) st = Ok (bs, st') -> adds (item v) r open bs st').
  { intros Et. eapply tagwriter_size; eauto. intros; apply unhandled_fails. }
  assert (En : node = true \/ node = false) by (destruct node; auto). destruct En as [En|En]; rewrite En in E; cbn [app chain] in E; auto.
  unfold step_node in E. destruct v as [| | | | | | |o]; auto. destruct (nth_error H o) as [x|] eqn:Hx; auto.
  destruct x; auto. destruct (node_code (vw_tag v)) as [code|] eqn:Ec; auto.
  unfold write_node_view in E. winv. repeat match goal with X : uint32_bytes _ = Ok _ |- _ => apply uint32_size in X end.
  exists r. split; auto. split; auto. cbn [SpecSize.item]. rewrite Hx, En. cbn [app].
  repeat first [rewrite lenN_app|rewrite lenN_cons]. lia.
Qed.
Lemma item_rep v v0 : equal_value H root v v0 -> item v0 = item v.
Proof.
  intros [<-|(A & B & _)]; auto. pose proof (hash_key_eq H v v0 A B) as X. destruct v; subst; auto.
  - destruct X as (b0 & -> & _). reflexivity.
  - destruct X as [o0 ->]. cbn [SpecSize.item]. f_equal.
    assert (A0 : hash_key H (VRef o0) <> None) by congruence. symmetry in B.
    assert (R : forall s f, nth_error H o0 = Some (ORegExp s f) -> nth_error H oid = Some (ORegExp s f)).
    { intros s f E0. apply (hash_key_buffer H o0 oid _ A0 B E0). }
    assert (R' : forall s f, nth_error H oid = Some (ORegExp s f) -> nth_error H o0 = Some (ORegExp s f)).
    { intros s f E0. apply (hash_key_buffer H oid o0 _ A (eq_sym B) E0). }
    assert (T : type_of H (VRef o0) = type_of H (VRef oid)).
    { unfold hash_key in *. destruct (hash H _ (VRef o0)); [|congruence]. destruct (hash H _ (VRef oid)); congruence. }
    assert (N1 : forall o, hash_key H (VRef o) <> None -> forall n m s c, nth_error H o <> Some (OError n m s c)).
    { intros o Ho n m s c E0. apply Ho. unfold hash_key. rewrite hash_S, E0. reflexivity. }
    pose proof (N1 _ A) as N2. pose proof (N1 _ A0) as N3. clear N1. cbn [type_of] in T.
    destruct (nth_error H o0) as [y0|] eqn:E0; [destruct y0|]; destruct (nth_error H oid) as [y|] eqn:E1; try (destruct y); auto; try discriminate T;
      try (exfalso; eapply N2; reflexivity); try (exfalso; eapply N3; reflexivity);
      try (specialize (R _ _ eq_refl); discriminate R); try (specialize (R' _ _ eq_refl); discriminate R').
    + specialize (R _ _ eq_refl). injection R as -> ->. reflexivity.
    + destruct node; auto. f_equal. f_equal. unfold hash_key in A, A0, B. rewrite !hash_S, E0 in B, A0. rewrite hash_S, E1 in A, B. cbv zeta in *.
      destruct (bk_hashable _) in A0, B; [|congruence]. destruct (item_keys _ _ _) in A0, B; [|congruence].
      destruct (bk_hashable _) in A, B; [|congruence]. destruct (item_keys _ _ _) in A, B; [|congruence]. congruence.
Qed.
Lemma sid_small (r : list nat) (i o : nat) : NoDup r -> inheap r -> nth_error r i = Some o -> width (N.of_nat i) <= width (lenN H).
Proof.
  intros ND Ih E. apply width_mono. assert (i < length r)%nat by (apply nth_error_Some; congruence).
  assert (length r <= length (seq 0 (length H)))%nat.
  { apply NoDup_incl_length; auto. intros x Ix. apply in_seq. unfold inheap in Ih. rewrite Forall_forall in Ih. destruct (WF _ (Ih _ Ix)) as (y & Ey & _).
    assert (x < length H)%nat by (apply nth_error_Some; congruence). lia. }
  rewrite seq_length in *. unfold lenN. lia.
Qed.
Lemma chain_size enc : sized enc -> enc_ok H cfg true node root enc -> sized (chain enc steps_of).
Proof.
  intros SZ EO. unfold ModelEncode.steps_of. split.
  - intros v st r open bs st' O So Ih E. cbn [app chain] in E. unfold step_references in E.
    destruct (deduplicate H v st) as [v0 s0] eqn:Ed.
    pose proof (dedup_st H true root _ _ _ _ _ _ So O Ed) as So0.
    destruct (dedup_spec H root _ _ _ _ (proj1 (proj2 So)) O Ed) as (Ev & Ov & _ & _ & _ & D0).
    rewrite <- (item_rep _ _ Ev).
    assert (T : (forall o, v0 = VRef o -> ~ In o r) ->
                chain enc ((if node then [step_node H] else []) ++ [step_tagwriter H cfg]) v0 s0 = Ok (bs, st') -> adds (item v0) r open bs st').
    { intros Fr Et. eapply node_tail; eauto. }
    destruct v0 as [| | | | | | |o]; try (apply T; auto; intros; discriminate).
    destruct (log_contains pyid (es_log s0) o) eqn:Lc.
    + clear T. unfold write_reference in E. apply bind_Ok in E as [sid [Es E]]. winv.
      pose proof So0 as (L0 & Sn0 & A0). destruct (L0 eq_refl) as (Ln & Nd & Ic & Id & En).
      unfold log_get_serialized_id in Es. unfold pyid in *. destruct (dget Nat.eqb o _) as [i|] eqn:Di; [|discriminate].
      assert (Io : In o r). { destruct (in_dec Nat.eq_dec o r) as [|N]; auto. apply Id in N. congruence. }
      apply In_nth_error in Io as [j Hj]. destruct (En _ _ Hj) as (Dj & e & Ee & Eo). rewrite Di in Dj. injection Dj as ->.
      rewrite Ee in Es. assert (sid = j) as -> by (destruct e as [|[|]]; try discriminate; injection Es as <-; auto).
      exists r. split; auto. split; auto. cbn [app SpecSize.item]. rewrite lenN_cons, varint_width.
      pose proof (sid_small _ _ _ Nd Ih Hj). lia.
    + apply T; auto. intros o' [= <-]. destruct So0 as (L0 & _). destruct (L0 eq_refl) as (_ & _ & _ & Id & _).
      apply Id. unfold log_contains, dmem, pyid in Lc. destruct (dget Nat.eqb o (log_ids (es_log s0))); auto; discriminate.
  - intros k st r open bs st' Sk O So E. cbn [app chain] in E. unfold step_references in E.
    destruct (deduplicate H k (set_allowed st (Some KeyTags))) as [v0 s0] eqn:Ed.
    assert (Sn : seen_ok H root (set_allowed st (Some KeyTags))) by (apply So).
    destruct (dedup_spec H root _ _ _ _ Sn O Ed) as (Ev & Ov & S0 & El & Ea & D0).
    assert (v0 = k).
    { destruct Ev as [<-|(A & B & _)]; auto. pose proof (hash_key_eq H k v0 A B) as X. destruct k; try contradiction; auto. }
    subst v0. cbn [es_log es_allowed set_allowed] in El, Ea.
    assert (So0 : st_ok (set_allowed s0 None) r open).
    { destruct So as (L & _ & _). split; [cbn [es_log set_allowed]; rewrite El; auto|]. split; auto. }
    assert (Es : s0 = set_allowed (set_allowed s0 None) (Some KeyTags)) by (destruct s0; cbn in *; subst; reflexivity).
    assert (E' : chain enc ((if node then [step_node H] else []) ++ [step_tagwriter H cfg]) k (set_allowed (set_allowed s0 None) (Some KeyTags)) = Ok (bs, st'))
      by (rewrite <- Es; destruct k; try contradiction; auto).
    assert (E2 : step_tagwriter H cfg enc k (chain enc []) (set_allowed (set_allowed s0 None) (Some KeyTags)) = Ok (bs, st')).
    { destruct node; cbn [app chain] in E'; auto. destruct k; try contradiction; auto. }
    eapply tagwriter_key_size; eauto.
Qed.
Lemma encode_size depth : sized (encode depth steps_of).
Proof.
  induction depth; [split; intros; discriminate|].
  pose proof (chain_size _ IHdepth (encode_ok H cfg true node root WF depth)) as X. exact X.
Qed.

Lemma wsum_incl r l : NoDup r -> incl r l -> wsum r <= wsum l.
Proof.
  revert l. induction r as [|o r IH]; intros l N I'; [unfold wsum; cbn; lia|].
  inversion N; subst. destruct (in_split o l) as (a & b & ->); [apply I'; left; auto|].
  assert (incl r (a ++ b)).
  { intros x Ix. specialize (I' x (or_intror Ix)). apply in_app_iff in I' as [J|[J|J]]; apply in_app_iff; auto. subst. contradiction. }
  specialize (IH _ H3 H0). unfold wsum in *. rewrite map_app, sum_app in *. cbn [map sum] in *. lia.
Qed.
Theorem dumps_size depth bs : dumps_depth depth steps_of root = Ok bs ->
  exists r, NoDup r /\ (forall o, In o r -> occ (VRef o)) /\ lenN bs <= 2 + item root + wsum r.
Proof.
  intros E. unfold dumps_depth in E. apply bind_Ok in E as [[b st] [E1 E]]. injection E as <-.
  destruct (proj1 (encode_size depth) _ _ [] [] _ _ (occ_root _ _) (st_empty _ _ _) (Forall_nil _) E1) as (r & So & Ih & L).
  exists r. split; [apply (proj1 So eq_refl)|]. split; [intros o; unfold inheap in Ih; rewrite Forall_forall in Ih; apply Ih|].
  rewrite !lenN_cons. unfold wsum in L at 1. cbn [map sum] in L. lia.
Qed.
End Sizes.
