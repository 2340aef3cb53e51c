(** Facts about typed arrays and DataViews in use. *)
From Coq Require Import List NArith ZArith Bool Lia ZifyBool ZifyNat ZifyN.
From Verif Require Import Base ModelTags ModelArray ModelBuffer SpecBuffer BufferFacts ModelTyped SpecTyped.
Import ListNotations.
Open Scope Z_scope.

Definition good (k : backing) : Prop :=
  bytes_ok (data_of k) /\ match k with BkBuffer j => zlen (jb_data j) <= jb_max j | _ => True end.
Definition locked (k : backing) : bool := match k with BkInaccessible => true | _ => bk_readonly k end.

Lemma replace_nth_nth {A} (l : list A) i j x :
  nth_error (replace_nth i x l) j = if Nat.eqb i j then (match nth_error l j with Some _ => Some x | None => None end) else nth_error l j.
Proof.
  revert i j. induction l as [|a l IH]; intros [|i] [|j]; cbn [replace_nth nth_error Nat.eqb]; try reflexivity; try apply IH.
  destruct (Nat.eqb i j); reflexivity.
Qed.
Lemma replace_nth_len {A} (l : list A) i x : length (replace_nth i x l) = length l.
Proof. revert i. induction l as [|a l IH]; intros [|i]; cbn [replace_nth length]; auto. Qed.

Lemma zlen_of d : zlen d = Z.of_nat (length d).
Proof. reflexivity. Qed.
Lemma Forall_firstn' {A} (P : A -> Prop) n l : Forall P l -> Forall P (firstn n l).
Proof. intros F. revert n. induction F; intros [|n]; cbn [firstn]; constructor; auto. Qed.
Lemma Forall_skipn' {A} (P : A -> Prop) n l : Forall P l -> Forall P (skipn n l).
Proof. intros F. revert n. induction F; intros [|n]; cbn [skipn]; auto. Qed.
Lemma bytes_ok_slice d a n : bytes_ok d -> bytes_ok (slice d a n).
Proof. intros B. unfold slice. apply Forall_firstn', Forall_skipn', B. Qed.
Lemma bytes_ok_splice d p bs : bytes_ok d -> bytes_ok bs -> bytes_ok (splice d p bs).
Proof. intros B C. unfold splice, bytes_ok in *. rewrite !Forall_app. repeat split; auto using Forall_firstn', Forall_skipn'. Qed.
Lemma bytes_ok_zeros n : bytes_ok (zeros n).
Proof. unfold zeros, bytes_ok. induction n; cbn [repeat]; constructor; auto. reflexivity. Qed.
Lemma bytes_ok_order l bs : bytes_ok bs -> bytes_ok (dv_order l bs).
Proof. intros B. unfold dv_order, bytes_ok. destruct l; auto. apply Forall_rev, B. Qed.

Lemma write_good k pos bs : good k -> locked k = false -> bytes_ok bs -> (pos + length bs <= length (data_of k))%nat ->
  good (bk_write k pos bs) /\ data_of (bk_write k pos bs) = splice (data_of k) pos bs /\ locked (bk_write k pos bs) = false /\
  zlen (data_of (bk_write k pos bs)) = zlen (data_of k).
Proof.
  intros [B M] L C N.
  assert (data_of (bk_write k pos bs) = splice (data_of k) pos bs) as D.
  { destruct k as [d|d|j|]; cbn [bk_write]; try reflexivity; [|discriminate].
    unfold data_of in *. cbn [bk_data] in *. rewrite (jsbuf_view_all j M) in *.
    rewrite jsbuf_view_all; cbn [jb_data jb_max]; [reflexivity|]. unfold zlen in *. rewrite splice_length by auto. auto. }
  split; [split|split; [|split]]; auto.
  - rewrite D. apply bytes_ok_splice; auto.
  - destruct k as [d|d|j|]; cbn [bk_write]; auto. unfold data_of in N. cbn [bk_data] in N. rewrite jsbuf_view_all in N by auto.
    cbn [jb_data jb_max]. unfold zlen in *. rewrite splice_length by auto. auto.
  - destruct k; auto.
  - rewrite D. unfold zlen. rewrite splice_length by auto. reflexivity.
Qed.

(** ** What is known of handles *)
Definition hview (h : handle) : option (view * Z * bool) :=
  match h with
  | HTyped v n ro | HData v n ro => Some (v, n, ro)
  | HHalf v c ro => Some (v, Z.of_nat (length c), ro)
  | HClosed => None
  end.
Definition hkind (h : handle) : Prop :=
  match h with
  | HTyped v _ _ => vw_tag v <> vDataView
  | HData v _ _ => vw_tag v = vDataView
  | HHalf v _ _ => vw_tag v = vFloat16
  | HClosed => True
  end.
(** the items of a view over [n] bytes *)
Definition items_in (n : Z) (v : view) : Z :=
  let s := isize (vw_tag v) in
  match vw_length v with
  | Some l => if n <? vw_offset v * s + l * s then 0 else l
  | None => Z.max 0 (n - vw_offset v * s) / s
  end.
Definition handle_ok (n : Z) (lk : bool) (h : handle) : Prop :=
  hkind h /\ forall v c ro, hview h = Some (v, c, ro) -> view_ok v /\ c = items_in n v /\ (lk = true -> ro = true).
Definition session_ok (s : session) : Prop :=
  good (ss_mem s) /\ Forall (handle_ok (zlen (data_of (ss_mem s))) (locked (ss_mem s))) (ss_handles s).

Lemma items_inside n v : view_ok v -> 0 <= n -> 0 <= items_in n v /\ (items_in n v = 0 \/ vstart v + items_in n v * isize (vw_tag v) <= n).
Proof.
  intros [O L] N. pose proof (isize_pos (vw_tag v)) as P. unfold items_in, vstart. cbn zeta. set (s := isize (vw_tag v)) in *.
  destruct (vw_length v) as [l|].
  - destruct (n <? vw_offset v * s + l * s) eqn:C; lia.
  - assert (0 <= Z.max 0 (n - vw_offset v * s) / s) by (apply Z.div_pos; lia). split; [auto|].
    destruct (Z.leb_spec (vw_offset v * s) n).
    + right. rewrite Z.max_r by lia. pose proof (Z.mul_div_le (n - vw_offset v * s) s P). lia.
    + left. rewrite Z.max_l by lia. apply Z.div_0_l. lia.
Qed.
Lemma items_memory k v : view_ok v -> zlen (snd (view_memory k v)) = items_in (zlen (data_of k)) v * isize (vw_tag v).
Proof.
  intros V. pose proof (items_inside (zlen (data_of k)) v V (zlen_nonneg _)) as I. pose proof (isize_pos (vw_tag v)) as P.
  destruct V as [O L]. unfold view_memory. fold (data_of k). unfold view_span, items_in, vstart in *. cbn zeta in *.
  set (s := isize (vw_tag v)) in *. set (n := zlen (data_of k)) in *.
  destruct (vw_length v) as [l|].
  - destruct (n <? vw_offset v * s + l * s) eqn:C; cbn [snd]; [reflexivity|]. unfold zlen. rewrite slice_length. unfold n, zlen in *. nia.
  - cbn [snd]. unfold zlen. rewrite slice_length. unfold n, zlen in *. set (q := _ / s) in *. nia.
Qed.
Lemma items_memory_div k v : view_ok v -> zlen (snd (view_memory k v)) / isize (vw_tag v) = items_in (zlen (data_of k)) v.
Proof. intros V. rewrite items_memory by auto. apply Z.div_mul. pose proof (isize_pos (vw_tag v)). lia. Qed.
Lemma elem_width t : Z.of_nat (dv_width (elem_format t)) = isize t.
Proof. destruct t; reflexivity. Qed.
Lemma elem_dv t : dv_format (elem_format t) = true.
Proof. destruct t; reflexivity. Qed.
Lemma mv_index_spec n i : match mv_index n i with Some j => at_index n i j | None => forall j, ~ at_index n i j end.
Proof. unfold mv_index, at_index. destruct (i <? 0) eqn:E; match goal with |- context[if ?c then _ else _] => destruct c eqn:C end; lia. Qed.
Lemma mv_index_at n i j : at_index n i j -> mv_index n i = Some j.
Proof. unfold mv_index, at_index. destruct (i <? 0) eqn:E; match goal with |- context[if ?c then _ else _] => destruct c eqn:C end; intros; try (f_equal; lia); lia. Qed.

Lemma number_of_le bs : number_of bs = Z.of_N (of_le bs).
Proof. induction bs as [|b r IH]; cbn [number_of of_le]; [reflexivity|]. rewrite IH. lia. Qed.
Lemma pow256 w : Z.of_N (256 ^ N.of_nat w) = 2 ^ (8 * Z.of_nat w).
Proof. rewrite N2Z.inj_pow. change (Z.of_N 256) with (2 ^ 8). rewrite <- Z.pow_mul_r by lia. f_equal. lia. Qed.
Lemma number_bound bs : bytes_ok bs -> 0 <= number_of bs < 2 ^ (8 * Z.of_nat (length bs)).
Proof. intros B. rewrite number_of_le. pose proof (of_le_bound bs B) as H. unfold lenN in H. pose proof (pow256 (length bs)). lia. Qed.

Lemma Forall_nth {A} (P : A -> Prop) l i x : Forall P l -> nth_error l i = Some x -> P x.
Proof. intros F E. rewrite Forall_forall in F. apply F. eapply nth_error_In; eauto. Qed.
Lemma Forall_replace {A} (P : A -> Prop) l i x : Forall P l -> P x -> Forall P (replace_nth i x l).
Proof. intros F. revert i. induction F; intros [|i] X; cbn [replace_nth]; constructor; auto. Qed.
Lemma item_range k h v c ro j : handle_ok (zlen (data_of k)) (locked k) h -> hview h = Some (v, c, ro) -> 0 <= j < c ->
  0 <= vstart v + j * isize (vw_tag v) /\ vstart v + j * isize (vw_tag v) + isize (vw_tag v) <= zlen (data_of k).
Proof.
  intros [_ H] E J. destruct (H v c ro E) as [V [-> _]]. pose proof (isize_pos (vw_tag v)) as P.
  destruct (items_inside (zlen (data_of k)) v V (zlen_nonneg _)) as [I [I2|I2]]; [lia|].
  assert (0 <= vstart v) by (unfold vstart; destruct V; nia). nia.
Qed.
Lemma data_range k v c ro off w : handle_ok (zlen (data_of k)) (locked k) (HData v c ro) -> 0 <= off -> 0 < w -> off + w <= c ->
  0 <= vstart v + off /\ vstart v + off + w <= zlen (data_of k).
Proof.
  intros [K H] O W E. destruct (H v c ro eq_refl) as [V [-> _]]. cbn [hkind] in K.
  destruct (items_inside (zlen (data_of k)) v V (zlen_nonneg _)) as [I [I2|I2]]; [lia|].
  assert (0 <= vstart v) by (unfold vstart; pose proof (isize_pos (vw_tag v)); destruct V; nia).
  rewrite K in I2. change (isize vDataView) with 1 in I2. lia.
Qed.
Lemma items_has n v : view_ok v -> 0 <= n -> has_items n (vstart v) (isize (vw_tag v)) (vw_length v) (items_in n v).
Proof.
  intros [O L] N. pose proof (isize_pos (vw_tag v)) as P. unfold has_items, items_in, vstart. cbn zeta. set (s := isize (vw_tag v)) in *.
  destruct (vw_length v) as [l|].
  - destruct (n <? _) eqn:A; destruct (_ <=? n) eqn:B; lia.
  - destruct (_ <=? n) eqn:B.
    + rewrite Z.max_r by lia. pose proof (Z.mul_div_le (n - vw_offset v * s) s P). pose proof (Z.mul_succ_div_gt (n - vw_offset v * s) s P). lia.
    + rewrite Z.max_l by lia. apply Z.div_0_l. lia.
Qed.
Lemma slice_at d a n : 0 <= a -> a + Z.of_nat n <= zlen d -> length (slice d (Z.to_nat a) n) = n /\ part_of (slice d (Z.to_nat a) n) d a.
Proof.
  intros A L. unfold zlen in L. split; [rewrite slice_length; lia|]. replace a with (Z.of_nat (Z.to_nat a)) at 2 by lia. apply slice_part. lia.
Qed.
Lemma halves_length cast32 widen d : forall fuel, (length d <= fuel)%nat -> length (halves cast32 widen fuel d) = (length d / 2)%nat.
Proof.
  assert (forall n d, (length d <= n)%nat -> forall fuel, (length d <= fuel)%nat -> length (halves cast32 widen fuel d) = (length d / 2)%nat) as H.
  { clear d. induction n as [|n IH]; intros d L fuel F.
    - destruct d; [|cbn in L; lia]. destruct fuel; reflexivity.
    - destruct d as [|a [|b r]].
      + destruct fuel; reflexivity.
      + destruct fuel; reflexivity.
      + destruct fuel as [|fuel]; [cbn in F; lia|]. cbn [halves length] in *. rewrite IH by lia.
        replace (S (S (length r))) with (length r + 1 * 2)%nat by lia. rewrite Nat.div_add by lia. lia. }
  intros. eapply H; [|eassumption]. apply le_n.
Qed.
Section Run.
Variable narrow : nat -> N -> option N.
Variable cast32 : N -> N.
Variable widen : nat -> N -> N.
Variable float_of : Z -> option N.
Variable native_half : bool.
Notation trun := (trun narrow cast32 widen float_of native_half).
Notation truns := (truns narrow cast32 widen float_of native_half).
Notation open_view := (open_view cast32 widen native_half).
Notation write_back := (write_back narrow widen).

Lemma open_ok k v ro : view_ok v ->
  hkind (open_view k v ro) /\
  hview (open_view k v ro) = Some (v, items_in (zlen (data_of k)) v, (ro || vw_readonly v || locked k)%bool).
Proof.
  intros V. pose proof (items_memory_div k v V) as D. unfold ModelTyped.open_view.
  set (mem := snd (view_memory k v)) in *.
  assert ((ro || vw_readonly v || bk_readonly k || match k with BkInaccessible => true | _ => false end)%bool = (ro || vw_readonly v || locked k)%bool) as ->.
  { unfold locked. destruct k; cbn [bk_readonly]; rewrite ?orb_false_r, ?orb_true_r; reflexivity. }
  set (rr := (ro || vw_readonly v || locked k)%bool).
  assert (length (halves cast32 widen (length mem) mem) = (length mem / 2)%nat) as HL by (apply halves_length; lia).
  destruct (vw_tag v) eqn:T; try destruct native_half; cbn [hview hkind]; rewrite ?T; (split; [try discriminate; reflexivity|]); rewrite <- D; unfold ModelBuffer.zlen.
  all: try reflexivity.
  - rewrite HL. do 3 f_equal. rewrite Nat2Z.inj_div. reflexivity.
  - change (isize vDataView) with 1. rewrite Z.div_1_r. reflexivity.
  - change (isize vDataView) with 1. rewrite Z.div_1_r. reflexivity.
Qed.
Lemma open_handle_ok k v ro : view_ok v -> handle_ok (zlen (data_of k)) (locked k) (open_view k v ro).
Proof.
  intros V. destruct (open_ok k v ro V) as [K W]. split; auto. intros v0 c r0 Q. rewrite W in Q. injection Q as <- <- <-.
  split; [auto|]. split; [auto|]. intros ->. apply orb_true_r.
Qed.

Lemma write_back_ok copy : forall k pos, good k -> locked k = false -> 0 <= pos ->
  (copy = [] \/ pos + Z.of_nat (length copy) * 2 <= zlen (data_of k)) ->
  let k' := snd (write_back k pos copy) in
  good k' /\ locked k' = false /\ zlen (data_of k') = zlen (data_of k).
Proof.
  induction copy as [|c r IH]; intros k pos G L P I; cbn [ModelTyped.write_back]; [cbn [snd]; auto|].
  destruct I as [I|I]; [discriminate|]. cbn [length] in I.
  destruct (narrow 2 (widen 4 c)) as [p|]; cbn [snd].
  - destruct (write_good k (Z.to_nat pos) (le_bytes 2 p) G L (le_bytes_ok _ _)) as [G1 [D1 [L1 Z1]]].
    { rewrite le_bytes_length. unfold zlen in I. lia. }
    destruct (IH (bk_write k (Z.to_nat pos) (le_bytes 2 p)) (pos + 2)) as [G2 [L2 Z2]]; auto; [lia| |].
    + right. lia.
    + cbn zeta in *. split; [auto|]. split; [auto|]. rewrite Z2. auto.
  - destruct (write_good k (Z.to_nat pos) (zeros 2) G L (bytes_ok_zeros _)) as [G1 [D1 [L1 Z1]]]; auto.
    rewrite zeros_length. unfold zlen in I. lia.
Qed.

(** ** What operations may be asked for, and the sessions users can reach *)
Definition top_ok (o : top) : Prop :=
  match o with
  | TOpen v _ => view_ok v
  | TGetData _ f _ _ => dv_format f = true
  | TSetData _ f _ _ _ => dv_format f = true
  | _ => True
  end.
Definition same_handle (a b : handle) : Prop :=
  match a, b with
  | HHalf v c ro, HHalf v' c' ro' => v = v' /\ length c = length c' /\ ro = ro'
  | _, _ => a = b
  end.
Lemma same_handle_refl a : same_handle a a.
Proof. destruct a; cbn; auto. Qed.
Lemma same_handle_trans a b c : same_handle a b -> same_handle b c -> same_handle a c.
Proof. destruct a, b; cbn; try discriminate; try (intros Q; injection Q as -> -> ->; auto); try (intros Q; auto); destruct c; cbn; intuition (try discriminate; try congruence). Qed.
Lemma same_handle_ok n lk a b : same_handle a b -> handle_ok n lk a -> handle_ok n lk b.
Proof.
  intros Q. destruct a, b; cbn in Q; try discriminate; try (injection Q as -> -> ->; auto); auto.
  destruct Q as [-> [Q ->]]. unfold handle_ok. cbn [hkind hview]. rewrite Q. auto.
Qed.

(** where the bytes of an item or of a DataView's number are *)

(** no operation but a resize changes the number of bytes *)
Lemma trun_ok s o : session_ok s -> top_ok o ->
  session_ok (snd (trun s o)) /\ locked (ss_mem (snd (trun s o))) = locked (ss_mem s) /\
  forall h hd, nth_error (ss_handles s) h = Some hd -> is_open hd = true -> (forall r, o <> TClose h r) ->
    zlen (data_of (ss_mem (snd (trun s o)))) = zlen (data_of (ss_mem s)) /\
    exists hd', nth_error (ss_handles (snd (trun s o))) h = Some hd' /\ same_handle hd hd'.
Proof.
  intros [G F] O.
  assert (session_ok s) as OK by (split; auto).
  assert (session_ok s /\ locked (ss_mem s) = locked (ss_mem s) /\
    forall h hd, nth_error (ss_handles s) h = Some hd -> is_open hd = true -> (forall r, o <> TClose h r) ->
    zlen (data_of (ss_mem s)) = zlen (data_of (ss_mem s)) /\ exists hd', nth_error (ss_handles s) h = Some hd' /\ same_handle hd hd') as SAME.
  { split; [auto|]. split; [auto|]. intros h hd E _ _. split; [auto|]. exists hd. split; [auto|apply same_handle_refl]. }
  assert (forall k', good k' -> locked k' = locked (ss_mem s) -> zlen (data_of k') = zlen (data_of (ss_mem s)) ->
    session_ok (mkSession k' (ss_handles s)) /\ locked k' = locked (ss_mem s) /\
    forall h hd, nth_error (ss_handles s) h = Some hd -> is_open hd = true -> (forall r, o <> TClose h r) ->
    zlen (data_of k') = zlen (data_of (ss_mem s)) /\ exists hd', nth_error (ss_handles s) h = Some hd' /\ same_handle hd hd') as WRITE.
  { intros k' G' L' Z'. split; [split; [auto|]|].
    - cbn [ss_mem ss_handles]. rewrite L', Z'. auto.
    - split; [auto|]. intros h hd E _ _. split; [auto|]. exists hd. split; [auto|apply same_handle_refl]. }
  assert (forall h0 hd0 k', nth_error (ss_handles s) h0 = Some hd0 -> (exists r, o = TClose h0 r) -> good k' -> locked k' = locked (ss_mem s) -> zlen (data_of k') = zlen (data_of (ss_mem s)) ->
    session_ok (mkSession k' (replace_nth h0 HClosed (ss_handles s))) /\ locked k' = locked (ss_mem s) /\
    forall h hd, nth_error (ss_handles s) h = Some hd -> is_open hd = true -> (forall r, o <> TClose h r) ->
    zlen (data_of k') = zlen (data_of (ss_mem s)) /\ exists hd', nth_error (replace_nth h0 HClosed (ss_handles s)) h = Some hd' /\ same_handle hd hd') as CLOSE.
  { intros h0 hd0 k' E0 [r0 ->] G' L' Z'. split; [split; [auto|]|].
    - cbn [ss_mem ss_handles]. rewrite L', Z'. apply Forall_replace; auto. split; [exact I|discriminate].
    - split; [auto|]. intros h hd E _ NC. split; [auto|]. exists hd. rewrite replace_nth_nth.
      destruct (Nat.eqb_spec h0 h) as [->|Ne]; [exfalso; eapply NC; reflexivity|]. split; [auto|apply same_handle_refl]. }
  destruct o as [v ro|h raised|h|h i|h i x|h f off little|h f off x little|n]; cbn [ModelTyped.trun].
  - cbn [snd ss_mem ss_handles]. split; [split; [auto|]|].
    + cbn [ss_mem ss_handles]. apply Forall_app. split; auto. constructor; auto. apply open_handle_ok. exact O.
    + split; [auto|]. intros h hd E _ _. split; [auto|]. exists hd. rewrite nth_error_app1 by (apply nth_error_Some; congruence).
      split; [auto|apply same_handle_refl].
  - destruct (nth_error (ss_handles s) h) as [hd|] eqn:E; [|exact SAME]. pose proof (Forall_nth _ _ _ _ F E) as HO.
    destruct hd as [v n ro|v n ro|v copy ro|]; unfold set_handle; cbn [snd ss_mem].
    1,2,4: apply (CLOSE _ _ _ E); eauto.
    destruct (raised || ro)%bool eqn:R; cbn [snd ss_mem]; [apply (CLOSE _ _ _ E); eauto|].
    destruct HO as [K HO]. cbn [hkind] in K. destruct (HO v _ _ eq_refl) as [V [C RO]].
    assert (locked (ss_mem s) = false) as LK by (destruct (locked (ss_mem s)); auto; rewrite RO, orb_true_r in R; auto; discriminate).
    pose proof (write_back_ok copy (ss_mem s) (vstart v) G LK) as W.
    destruct (items_inside (zlen (data_of (ss_mem s))) v V (zlen_nonneg _)) as [I I2]. rewrite <- C, K in I2. change (isize vFloat16) with 2 in I2.
    destruct W as [W1 [W2 W3]].
    + unfold vstart. pose proof (isize_pos (vw_tag v)). destruct V. nia.
    + destruct I2 as [I2|I2]; [left; destruct copy; [auto|cbn in I2; lia]|right; auto].
    + destruct (write_back (ss_mem s) (vstart v) copy) as [e k'] eqn:WB. cbn [snd] in *. cbn [ss_mem]. apply (CLOSE _ _ _ E); eauto.
  - destruct (nth_error (ss_handles s) h) as [[]|]; exact SAME.
  - destruct (nth_error (ss_handles s) h) as [[v c ro| | v c ro| ]|]; try exact SAME; destruct (mv_index _ _); exact SAME.
  - destruct (nth_error (ss_handles s) h) as [hd|] eqn:E; [|exact SAME]. pose proof (Forall_nth _ _ _ _ F E) as HO.
    destruct hd as [v n ro|v n ro|v copy ro|]; try exact SAME.
    + destruct ro; [exact SAME|]. pose proof (mv_index_spec n i) as MI. destruct (mv_index n i) as [j|]; [|exact SAME].
      destruct (item_bits _ _ _ _ _) as [b|e]; [|exact SAME]. cbn [snd ss_mem ss_handles].
      destruct MI as [J _]. pose proof (item_range _ _ _ _ _ j HO eq_refl J) as [R1 R2].
      destruct HO as [_ HO]. destruct (HO _ _ _ eq_refl) as [V [_ LK]].
      assert (locked (ss_mem s) = false) as L by (destruct (locked (ss_mem s)); auto; discriminate LK; auto).
      destruct (write_good (ss_mem s) (Z.to_nat (vstart v + j * isize (vw_tag v))) (le_bytes (dv_width (elem_format (vw_tag v))) b) G L (le_bytes_ok _ _)) as [G1 [D1 [L1 Z1]]].
      { rewrite le_bytes_length. pose proof (elem_width (vw_tag v)). unfold zlen in R2. lia. }
      apply WRITE; auto. congruence.
    + destruct ro; [exact SAME|]. destruct (mv_index _ _) as [j|]; [|exact SAME].
      destruct (item_bits _ _ _ _ _) as [b|e]; [|exact SAME]. unfold set_handle. cbn [snd ss_mem ss_handles].
      assert (same_handle (HHalf v copy false) (HHalf v (replace_nth (Z.to_nat j) b copy) false)) as SH by (cbn; rewrite replace_nth_len; auto).
      split; [split; [auto|]|].
      * cbn [ss_mem ss_handles]. apply Forall_replace; auto. eapply same_handle_ok; eauto.
      * split; [auto|]. intros h1 hd E1 _ _. split; [auto|]. rewrite replace_nth_nth. destruct (Nat.eqb_spec h h1) as [<-|Ne].
        -- rewrite E in E1 |- *. injection E1 as <-. eauto.
        -- exists hd. split; [auto|apply same_handle_refl].
  - destruct (nth_error (ss_handles s) h) as [[v c ro| v c ro | v c ro| ]|]; try exact SAME. destruct (_ || _)%bool; exact SAME.
  - destruct (nth_error (ss_handles s) h) as [hd|] eqn:E; [|exact SAME]. pose proof (Forall_nth _ _ _ _ F E) as HO.
    destruct hd as [v n ro|v n ro|v copy ro|]; try exact SAME.
    destruct ((off <? 0) || (n <? off + Z.of_nat (dv_width f)))%bool eqn:B; [exact SAME|]. destruct ro; [exact SAME|].
    cbn [top_ok] in O. assert (0 < dv_width f)%nat as W by (eapply dv_format_width; eauto).
    destruct (data_range _ _ _ _ off (Z.of_nat (dv_width f)) HO ltac:(lia) ltac:(lia) ltac:(lia)) as [R1 R2].
    destruct HO as [_ HO]. destruct (HO _ _ _ eq_refl) as [V [_ LK]].
    assert (locked (ss_mem s) = false) as L by (destruct (locked (ss_mem s)); auto; discriminate LK; auto).
    assert (forall bs, bytes_ok bs -> length bs = dv_width f -> good (bk_write (ss_mem s) (Z.to_nat (vstart v + off)) bs) /\
       locked (bk_write (ss_mem s) (Z.to_nat (vstart v + off)) bs) = locked (ss_mem s) /\
       zlen (data_of (bk_write (ss_mem s) (Z.to_nat (vstart v + off)) bs)) = zlen (data_of (ss_mem s))) as WR.
    { intros bs B1 B2. destruct (write_good (ss_mem s) (Z.to_nat (vstart v + off)) bs G L B1) as [G1 [D1 [L1 Z1]]]; [unfold zlen in R2; lia|].
      split; [auto|]. split; [congruence|auto]. }
    destruct (dv_bits narrow f x) as [b|e]; cbn [snd ss_mem ss_handles]; apply WRITE; apply WR;
      rewrite ?dv_order_length, ?le_bytes_length, ?zeros_length; auto using bytes_ok_zeros, bytes_ok_order, le_bytes_ok.
  - destruct (ss_mem s) as [d|d|b|] eqn:KM.
    1,2,4: cbn [snd]; rewrite <- ?KM; rewrite ?KM; exact SAME.
    cbn [snd].
    destruct (jsbuf_resize b n) as [b'|e] eqn:RS; [|cbn [snd]; rewrite KM; exact SAME].
    destruct (negb (zlen (jb_data b') =? zlen (jb_data b)) && existsb is_open (ss_handles s))%bool eqn:EX; [cbn [snd]; rewrite KM; exact SAME|].
    cbn [snd ss_mem ss_handles].
    destruct G as [GB GM].
    assert (bytes_ok (jb_data b') /\ zlen (jb_data b') <= jb_max b' /\ jb_readonly b' = jb_readonly b) as [B1 [B2 B3]].
    { unfold data_of in GB. cbn [bk_data] in GB. rewrite jsbuf_view_all in GB by auto.
      unfold jsbuf_resize in RS. destruct (negb (jb_resizable b)); [discriminate|]. destruct (negb _) eqn:BN in RS; [discriminate|].
      injection RS as <-. cbn [jb_data jb_max jb_readonly]. split; [|split; [|reflexivity]].
      - destruct (_ <? _); [apply Forall_app; split; auto; apply bytes_ok_zeros|apply Forall_firstn'; auto].
      - destruct (_ <? _) eqn:LT; unfold zlen in *; [rewrite app_length, zeros_length; lia|rewrite firstn_length; lia]. }
    assert (data_of (BkBuffer b') = jb_data b') as D1 by (apply jsbuf_view_all; auto).
    assert (data_of (BkBuffer b) = jb_data b) as D0 by (apply jsbuf_view_all; auto).
    assert (locked (BkBuffer b') = locked (BkBuffer b)) as LK by (cbn; auto).
    destruct (existsb is_open (ss_handles s)) eqn:OPEN.
    + assert (zlen (data_of (BkBuffer b')) = zlen (data_of (BkBuffer b))) as LE.
      { rewrite D0, D1. rewrite andb_true_r in EX. lia. }
      apply WRITE; auto. split; auto. rewrite D1. auto.
    + assert (forall h hd, nth_error (ss_handles s) h = Some hd -> is_open hd = false) as NO.
      { intros h hd E. destruct (is_open hd) eqn:IO; auto. rewrite <- OPEN. symmetry. apply existsb_exists. exists hd. split; auto. eapply nth_error_In; eauto. }
      split; [split; [cbn [ss_mem]; split; [rewrite D1|]; auto|]|].
      * cbn [ss_mem ss_handles]. apply Forall_forall. intros hd IN. apply In_nth_error in IN as [h E]. pose proof (NO h hd E).
        destruct hd; try discriminate. split; [exact I|discriminate].
      * split; [auto|]. intros h hd E IO. rewrite (NO h hd E) in IO. discriminate.
Qed.

Lemma truns_split ops : forall s tr s' tr1 o r tr2, truns s ops = (tr, s') -> tr = tr1 ++ (o, r) :: tr2 ->
  exists ops1 s1 s2 ops2, ops = ops1 ++ o :: ops2 /\ truns s ops1 = (tr1, s1) /\ trun s1 o = (r, s2) /\ truns s2 ops2 = (tr2, s').
Proof.
  induction ops as [|o0 ops IH]; intros s tr s' tr1 o r tr2 T E; cbn [ModelTyped.truns] in T.
  - injection T as <- <-. destruct tr1; discriminate.
  - destruct (trun s o0) as [x s1] eqn:R. destruct (truns s1 ops) as [tr0 s3] eqn:R2. injection T as <- <-.
    destruct tr1 as [|e tr1]; cbn [app] in E.
    + injection E as -> -> ->. exists [], s, s1, ops. cbn [ModelTyped.truns app]. auto.
    + injection E as E1 E2. destruct (IH _ _ _ _ _ _ _ R2 E2) as [ops1 [s4 [s5 [ops2 [Q1 [Q2 [Q3 Q4]]]]]]].
      exists (o0 :: ops1), s4, s5, ops2. cbn [app ModelTyped.truns]. rewrite R, Q2, Q1, E1. auto.
Qed.
Lemma truns_ok ops : forall s tr s', session_ok s -> Forall top_ok ops -> truns s ops = (tr, s') ->
  session_ok s' /\ locked (ss_mem s') = locked (ss_mem s) /\
  forall h hd, nth_error (ss_handles s) h = Some hd -> is_open hd = true -> (forall x r, ~ In (TClose h x, r) tr) ->
    zlen (data_of (ss_mem s')) = zlen (data_of (ss_mem s)) /\
    exists hd', nth_error (ss_handles s') h = Some hd' /\ same_handle hd hd'.
Proof.
  induction ops as [|o ops IH]; intros s tr s' OK F T; cbn [ModelTyped.truns] in T.
  - injection T as <- <-. split; [auto|]. split; [auto|]. intros h hd E _ _. split; [auto|]. exists hd. split; [auto|apply same_handle_refl].
  - destruct (trun s o) as [x s1] eqn:R. destruct (truns s1 ops) as [tr0 s3] eqn:R2. injection T as <- <-.
    inversion F as [|? ? O1 F1]; subst. destruct (trun_ok s o OK O1) as [OK1 [L1 S1]]. rewrite R in OK1, L1, S1. cbn [snd] in *.
    destruct (IH _ _ _ OK1 F1 R2) as [OK2 [L2 S2]]. split; [auto|]. split; [congruence|].
    intros h hd E IO NC. destruct (S1 h hd E IO) as [Z1 [hd1 [E1 H1]]].
    { intros r ->. apply (NC r x). left. reflexivity. }
    destruct (S2 h hd1 E1) as [Z2 [hd2 [E2 H2]]].
    + destruct hd, hd1; cbn in H1; try discriminate; auto.
    + intros y r IN. apply (NC y r). right. auto.
    + split; [congruence|]. exists hd2. split; [auto|]. eapply same_handle_trans; eauto.
Qed.

(** A view is in use: its block was entered and has not ended. *)
Definition open_on (tr : list (top * tresp)) (h : nat) (v : view) (ro : bool) : Prop :=
  exists tr1 tr2, tr = tr1 ++ (TOpen v ro, THandle h) :: tr2 /\ forall raised r, ~ In (TClose h raised, r) tr2.
Definition session_from (k : backing) (tr : list (top * tresp)) (s : session) : Prop :=
  good k /\ exists ops, Forall top_ok ops /\ truns (mkSession k []) ops = (tr, s).

Lemma session_from_ok k tr s : session_from k tr s -> session_ok s /\ locked (ss_mem s) = locked k.
Proof.
  intros [G [ops [F T]]]. destruct (truns_ok ops (mkSession k []) tr s) as [OK [L _]]; auto. split; auto. cbn [ss_handles]. constructor.
Qed.
Lemma opened k tr s h v ro : session_from k tr s -> open_on tr h v ro ->
  view_ok v /\ exists hd k1, nth_error (ss_handles s) h = Some hd /\ same_handle (open_view k1 v ro) hd /\ hkind hd /\
    hview hd = Some (v, items_in (zlen (data_of (ss_mem s))) v, (ro || vw_readonly v || locked k)%bool).
Proof.
  intros [G [ops [F T]]] [tr1 [tr2 [E NC]]].
  destruct (truns_split ops _ _ _ _ _ _ _ T E) as [ops1 [s1 [s2 [ops2 [-> [T1 [R T2]]]]]]].
  apply Forall_app in F as [F1 F2]. inversion F2 as [|? ? O1 F3]; subst.
  destruct (truns_ok ops1 (mkSession k []) tr1 s1) as [OK1 [L1 _]]; auto; [split; [auto|constructor]|].
  destruct (trun_ok s1 (TOpen v ro) OK1 O1) as [OK2 [L2 _]]. rewrite R in OK2, L2. cbn [snd] in *.
  cbn [ModelTyped.trun] in R. injection R as HH <-. subst h. cbn [ss_mem] in L2. cbn [top_ok] in O1.
  set (hd0 := open_view (ss_mem s1) v ro) in *. destruct (open_ok (ss_mem s1) v ro O1) as [K0 W0]. fold hd0 in K0, W0.
  destruct (truns_ok ops2 _ tr2 s OK2 F3 T2) as [OK3 [L3 S3]]. cbn [ss_mem ss_handles] in *.
  destruct (S3 (length (ss_handles s1)) hd0) as [Z3 [hd' [E3 H3]]]; auto.
  { rewrite nth_error_app2 by lia. rewrite Nat.sub_diag. reflexivity. }
  { destruct hd0; auto. discriminate. }
  split; [auto|]. exists hd', (ss_mem s1). split; [auto|]. split; [auto|].
  assert (same_handle hd0 hd' -> hkind hd0 -> hview hd0 = Some (v, items_in (zlen (data_of (ss_mem s1))) v, (ro || vw_readonly v || locked (ss_mem s1))%bool) ->
     hkind hd' /\ hview hd' = hview hd0) as W.
  { clear. intros Q K E. destruct hd0, hd'; cbn in Q; try discriminate; try (injection Q as -> -> ->; auto).
    destruct Q as [-> [Q ->]]. cbn [hkind hview] in *. rewrite Q. auto. }
  destruct (W H3 K0 W0) as [K1 W1]. split; [auto|]. rewrite W1, W0, Z3. cbn [ss_mem] in L1. rewrite L1. reflexivity.
Qed.
Lemma opened_typed k tr s h v ro : session_from k tr s -> open_on tr h v ro -> vw_tag v <> vDataView -> (vw_tag v = vFloat16 -> native_half = true) ->
  view_ok v /\ nth_error (ss_handles s) h = Some (HTyped v (items_in (zlen (data_of (ss_mem s))) v) (ro || vw_readonly v || locked k)).
Proof.
  intros SF OO ND NH. destruct (opened k tr s h v ro SF OO) as [V [hd [k1 [E [SH [K W]]]]]]. split; [auto|]. rewrite E. f_equal.
  unfold ModelTyped.open_view in SH. cbn zeta in SH.
  destruct (vw_tag v) eqn:TG; try congruence; try rewrite (NH eq_refl) in SH; destruct hd; cbn [same_handle] in SH; try discriminate; cbn [hview] in W; injection W as -> -> ->; reflexivity.
Qed.
Lemma opened_data k tr s h v ro : session_from k tr s -> open_on tr h v ro -> vw_tag v = vDataView ->
  view_ok v /\ nth_error (ss_handles s) h = Some (HData v (items_in (zlen (data_of (ss_mem s))) v) (ro || vw_readonly v || locked k)).
Proof.
  intros SF OO TG. destruct (opened k tr s h v ro SF OO) as [V [hd [k1 [E [SH [K W]]]]]]. split; [auto|]. rewrite E. f_equal.
  unfold ModelTyped.open_view in SH. cbn zeta in SH. rewrite TG in SH.
  destruct hd; cbn [same_handle] in SH; try discriminate; cbn [hview] in W; injection W as -> -> ->; reflexivity.
Qed.
Lemma opened_half k tr s h v ro : session_from k tr s -> open_on tr h v ro -> vw_tag v = vFloat16 -> native_half = false ->
  view_ok v /\ exists copy, nth_error (ss_handles s) h = Some (HHalf v copy (ro || vw_readonly v || locked k)) /\
    Z.of_nat (length copy) = items_in (zlen (data_of (ss_mem s))) v.
Proof.
  intros SF OO TG NH. destruct (opened k tr s h v ro SF OO) as [V [hd [k1 [E [SH [K W]]]]]]. split; [auto|].
  unfold ModelTyped.open_view in SH. cbn zeta in SH. rewrite TG, NH in SH.
  destruct hd as [| |v' copy ro'|]; cbn [same_handle] in SH; try discriminate; cbn [hview] in W; try tauto. injection W as -> E2 ->. exists copy. split; auto.
Qed.

(** ** Reading and writing bytes *)
Lemma reads_value f bs : dv_format f = true -> bytes_ok bs -> length bs = dv_width f -> reads_as widen f bs (dv_value widen f (of_le bs)).
Proof.
  intros D B L. pose proof (number_bound bs B) as NB. rewrite number_of_le in NB. rewrite L in NB.
  destruct f as [w|w|w]; cbn [dv_width] in *.
  - cbn [dv_value reads_as]. rewrite number_of_le.
    assert (2 ^ (8 * Z.of_nat w) = 2 * 2 ^ (8 * Z.of_nat w - 1)) as PW.
    { assert (0 < w)%nat. { cbn [dv_format] in D. apply existsb_exists in D as [y [I E]]. apply Nat.eqb_eq in E as <-. cbn [In] in I. lia. }
      rewrite <- Z.pow_succ_r by lia. f_equal. lia. }
    destruct (Z.ltb_spec (Z.of_N (of_le bs)) (2 ^ (8 * Z.of_nat w - 1))); split; lia.
  - cbn [dv_value reads_as]. rewrite number_of_le. reflexivity.
  - cbn [dv_format] in D. apply existsb_exists in D as [y [I E]]. apply Nat.eqb_eq in E as <-. cbn [In] in I.
    destruct I as [<-|[<-|[<-|[]]]]; cbn [dv_value reads_as]; rewrite number_of_le; rewrite ?N2Z.id; reflexivity.
Qed.
Hypothesis narrow_fits : forall w b p, narrow w b = Some p -> (p < 256 ^ N.of_nat w)%N.
Hypothesis cast32_fits : forall b, (cast32 b < 2 ^ 32)%N.
Hypothesis float_fits : forall z b, float_of z = Some b -> (b < 2 ^ 64)%N.
Definition value_ok (x : dvval) : Prop := match x with DVInt _ => True | DVFloat b => (b < 2 ^ 64)%N end.
Lemma stores_float_bits w b n : existsb (Nat.eqb w) [2%nat; 4%nat; 8%nat] = true -> (b < 2 ^ 64)%N -> float_item narrow cast32 w b = Ok n ->
  stores_float narrow cast32 w b (le_bytes w n).
Proof.
  intros D V E. unfold float_item in E. cbn [existsb] in D.
  destruct (Nat.eqb_spec w 8) as [->|N8].
  - injection E as <-. cbn [stores_float]. rewrite number_of_le, of_le_le_bytes by exact V. reflexivity.
  - destruct (Nat.eqb_spec w 4) as [->|N4].
    + injection E as <-. cbn [stores_float]. rewrite number_of_le, of_le_le_bytes by apply cast32_fits. reflexivity.
    + destruct (Nat.eqb_spec w 2) as [->|N2]; [|discriminate]. cbn [stores_float].
      destruct (narrow 2 b) as [p|] eqn:NR; [|discriminate]. injection E as ->. exists n. split; auto.
      rewrite number_of_le, of_le_le_bytes by (eapply narrow_fits; eauto). reflexivity.
Qed.
Lemma float_item_err w b e : float_item narrow cast32 w b = Err e -> w <> 8%nat /\ w <> 4%nat /\ narrow w b = None /\ e = EValue.
Proof.
  unfold float_item. destruct (Nat.eqb_spec w 8); [discriminate|]. destruct (Nat.eqb_spec w 4); [discriminate|].
  destruct (narrow w b); [discriminate|]. intros Q. injection Q as <-. auto.
Qed.
Lemma item_bits_spec f x : dv_format f = true -> value_ok x ->
  match item_bits narrow cast32 float_of f x with
  | Ok n => stores narrow cast32 widen float_of f x (le_bytes (dv_width f) n)
  | Err e => refuses narrow float_of f x e
  end.
Proof.
  intros D V. destruct f as [w|w|w], x as [z|b]; cbn [item_bits dv_width]; try exact (eq_refl EType).
  - assert (0 < w)%nat. { cbn [dv_format] in D. apply existsb_exists in D as [y [I E]]. apply Nat.eqb_eq in E as <-. cbn [In] in I. lia. }
    assert (2 ^ (8 * Z.of_nat w) = 2 * 2 ^ (8 * Z.of_nat w - 1)) as PW by (rewrite <- Z.pow_succ_r by lia; f_equal; lia).
    assert (0 < 2 ^ (8 * Z.of_nat w)) as PP by (apply Z.pow_pos_nonneg; lia).
    destruct (_ && _)%bool eqn:C; [|split; [|reflexivity]; cbn [int_fits]; lia].
    cbn [stores int_fits reads_as]. split; [lia|]. split; [|lia].
    pose proof (Z.mod_pos_bound z (2 ^ (8 * Z.of_nat w)) PP) as MB.
    rewrite number_of_le, of_le_le_bytes by (pose proof (pow256 w); lia). rewrite Z2N.id by lia.
    destruct (Z.ltb_spec z 0) as [NG|NG].
    + right. replace (z mod 2 ^ (8 * Z.of_nat w)) with (z + 2 ^ (8 * Z.of_nat w)); [lia|].
      apply Z.mod_unique_pos with (q := -1); lia.
    + left. rewrite Z.mod_small by lia. reflexivity.
  - assert (0 <= 2 ^ (8 * Z.of_nat w)) by (apply Z.pow_nonneg; lia).
    destruct (_ && _)%bool eqn:C; [|split; [|reflexivity]; cbn [int_fits]; lia].
    cbn [stores int_fits reads_as]. split; [lia|].
    rewrite number_of_le, of_le_le_bytes by (pose proof (pow256 w); lia). lia.
  - cbn [stores refuses]. destruct (float_of z) as [b|] eqn:FO; [|split; auto].
    destruct (float_item narrow cast32 w b) as [n|e] eqn:FI.
    + exists b. split; [auto|]. apply stores_float_bits; eauto.
    + destruct (float_item_err _ _ _ FI) as [A [B [C ->]]]. split; [auto|]. right. eauto.
  - cbn [stores refuses value_ok] in *. destruct (float_item narrow cast32 w b) as [n|e] eqn:FI.
    + apply stores_float_bits; auto.
    + apply (float_item_err _ _ _ FI).
Qed.
End Run.
