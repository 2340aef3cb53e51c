(** C63: views are compared by the numbers they show, buffers by their contents and limits. *)
From Coq Require Import List NArith ZArith Bool Lia ZifyBool ZifyNat ZifyN.
From Verif Require Import Base SpecNumber ModelTags ModelArray ModelValue ValueFacts ModelBuffer SpecBuffer BufferFacts ModelTyped SpecTyped TypedFacts ModelViewEq SpecViewEq.
Import ListNotations.
Open Scope Z_scope.

Lemma num_eqb_spec a b : num_eqb a b = true <-> a <> NaN /\ same_number a b.
Proof.
  destruct a as [|s|m e], b as [|s'|m' e']; cbn [num_eqb same_number]; try (split; [discriminate|intros [A B]; try contradiction; congruence]).
  - rewrite eqb_true_iff. split; [intros ->; split; congruence|tauto].
  - rewrite <- canon_eq. destruct (canon m e) as [q x], (canon m' e') as [q' x'].
    rewrite andb_true_iff, !Z.eqb_eq. split; [intros [-> ->]; split; congruence|intros [_ [= -> ->]]; auto].
Qed.
Lemma items_eqb_spec x y : num_eqb (number_of_item x) (number_of_item y) = true <-> equal_items x y.
Proof.
  rewrite num_eqb_spec. unfold equal_items. split.
  - intros [A B]. exists (number_of_item x), (number_of_item y). repeat split; auto; [destruct x|destruct y]; reflexivity.
  - intros (n & m & X & Y & A & B). assert (number_of_item x = n) as <- by (destruct x; cbn in *; congruence).
    assert (number_of_item y = m) as <- by (destruct y; cbn in *; congruence). auto.
Qed.
Lemma mv_eq_spec a : forall b, mv_eq a b = true <-> Forall2 equal_items a b.
Proof.
  induction a as [|x a IH]; intros [|y b]; cbn [mv_eq].
  - split; constructor.
  - split; [discriminate|intros F; inversion F].
  - split; [discriminate|intros F; inversion F].
  - rewrite andb_true_iff, items_eqb_spec, IH. split; [intros [A B]; constructor; auto|intros F; inversion F; auto].
Qed.
Lemma equal_items_sym x y : equal_items x y -> equal_items y x.
Proof.
  intros (n & m & X & Y & A & B). exists m, n. repeat split; auto.
  - destruct n, m; cbn [same_number] in B; try contradiction; congruence.
  - apply num_key_eq. apply num_key_eq in B. auto.
Qed.
Lemma equal_items_trans x y z : equal_items x y -> equal_items y z -> equal_items x z.
Proof.
  intros (n & m & X & Y & A & B) (n' & m' & Y' & W & A' & B'). exists n, m'. repeat split; auto.
  assert (n' = m) as -> by (destruct y; cbn in *; congruence). apply num_key_eq. apply num_key_eq in B, B'. congruence.
Qed.
Lemma equal_items_refl x : ~ is_nan_item x -> equal_items x x.
Proof.
  intros N. exists (number_of_item x), (number_of_item x). assert (number_shown x (number_of_item x)) as X by (destruct x; reflexivity).
  repeat split; auto; [|apply num_key_eq; reflexivity]. intros E. apply N. unfold is_nan_item. rewrite <- E. exact X.
Qed.
Lemma Forall2_sym' {A} (R : A -> A -> Prop) : (forall x y, R x y -> R y x) -> forall l l', Forall2 R l l' -> Forall2 R l' l.
Proof. intros S l l' F. induction F; constructor; auto. Qed.
Lemma Forall2_trans' {A} (R : A -> A -> Prop) : (forall x y z, R x y -> R y z -> R x z) -> forall l l' l'', Forall2 R l l' -> Forall2 R l' l'' -> Forall2 R l l''.
Proof. intros T l l' l'' F. revert l''. induction F; intros l'' G; inversion G; subst; constructor; eauto. Qed.
Lemma nth_map_seq {A} (f : nat -> A) n i x : nth_error (map f (seq 0 n)) i = Some x -> (i < n)%nat /\ x = f i.
Proof.
  intros E. assert (i < length (map f (seq 0 n)))%nat as L by (apply nth_error_Some; congruence). rewrite map_length, seq_length in L. split; auto.
  rewrite nth_error_map in E. rewrite (nth_error_nth' _ 0%nat) in E by (rewrite seq_length; auto). rewrite seq_nth in E by auto. cbn in E. congruence.
Qed.

Lemma ext_len {A} (l l' : list A) : length l = length l' -> (forall i x y, nth_error l i = Some x -> nth_error l' i = Some y -> x = y) -> l = l'.
Proof.
  revert l'. induction l as [|a l IH]; intros [|b l'] L E; try discriminate; auto. f_equal.
  - apply (E 0%nat a b); reflexivity.
  - apply IH; [cbn in L; lia|]. intros i. apply (E (S i)).
Qed.
Lemma Forall2_len {A B} (R : A -> B -> Prop) l l' : Forall2 R l l' -> length l = length l'.
Proof. intros F. induction F; cbn; auto. Qed.
Lemma Forall2_at {A B} (R : A -> B -> Prop) l l' i x y : Forall2 R l l' -> nth_error l i = Some x -> nth_error l' i = Some y -> R x y.
Proof. intros F. revert i. induction F; intros [|i] E E'; try discriminate; cbn in *; [congruence|eauto]. Qed.

Section Eq.
Variable narrow : nat -> N -> option N.
Variable cast32 : N -> N.
Variable widen : nat -> N -> N.
Variable float_of : Z -> option N.
Variable py312 : bool.
Notation view_eq := (view_eq cast32 widen py312).
Notation shows := (shows narrow cast32 widen float_of py312).
Notation block k v := (open_view cast32 widen py312 k v true).
Notation items k v := (block_items widen k (block k v)).

Lemma block_tag k v : view_ok v -> is_data (block k v) = match vw_tag v with vDataView => true | _ => false end.
Proof. intros _. unfold open_view. destruct (vw_tag v); try reflexivity. destruct py312; reflexivity. Qed.
Lemma block_shows k v : view_ok v -> shows k v (items k v).
Proof.
  intros V. destruct (open_ok cast32 widen float_of py312 k v true V) as [K W]. set (n := items_in (zlen (data_of k)) v) in *.
  pose proof (items_inside (zlen (data_of k)) v V (zlen_nonneg _)) as [I0 _]. fold n in I0.
  unfold SpecViewEq.shows, seen, read_op. cbn [trun fst snd ss_mem ss_handles nth_error length app].
  destruct (block k v) as [w c ro|w c ro|w c ro|] eqn:B; cbn [hview hkind] in *; try discriminate; injection W as -> CN ->; try subst c; cbn [block_items].
  - rewrite map_length, seq_length, Z2Nat.id by lia. split; [reflexivity|]. intros i x E. apply nth_map_seq in E as [L ->].
    destruct (vw_tag v) eqn:T; try (exfalso; apply K; reflexivity); cbn [trun nth_error ss_handles ss_mem fst];
      (assert (mv_index n (Z.of_nat i) = Some (Z.of_nat i)) as -> by (apply mv_index_at; split; [lia|auto]); rewrite T; reflexivity).
  - rewrite map_length, seq_length, Z2Nat.id by lia. split; [reflexivity|]. intros i x E. apply nth_map_seq in E as [L ->].
    rewrite K. cbn [trun nth_error ss_handles ss_mem fst dv_width]. destruct (Z.ltb_spec (Z.of_nat i) 0); [lia|].
    destruct (Z.ltb_spec n (Z.of_nat i + Z.of_nat 1)); [lia|]. reflexivity.
  - rewrite map_length. split; [reflexivity|]. intros i x E. rewrite nth_error_map in E. destruct (nth_error c i) as [b|] eqn:EC; [|discriminate].
    injection E as <-. assert (i < length c)%nat as L by (apply nth_error_Some; congruence).
    rewrite K. cbn [trun nth_error ss_handles ss_mem fst].
    assert (mv_index (Z.of_nat (length c)) (Z.of_nat i) = Some (Z.of_nat i)) as -> by (apply mv_index_at; split; [lia|auto]).
    cbn [fst]. rewrite Nat2Z.id. rewrite (nth_error_nth _ _ 0%N EC). reflexivity.
Qed.
Lemma shows_unique k v l l' : shows k v l -> shows k v l' -> l = l'.
Proof.
  intros [L S] [L' S']. unfold seen in L, L'. rewrite L in L'. injection L' as EL. apply Nat2Z.inj in EL.
  apply ext_len; auto. intros i x y E E'. apply S in E. apply S' in E'. unfold seen in *. congruence.
Qed.
(** The items are a function of the view's bytes. *)
Lemma skipn_skipn' {A} a b (l : list A) : skipn b (skipn a l) = skipn (a + b) l.
Proof. revert l. induction a; intros [|x l]; auto. destruct b; reflexivity. apply IHa. Qed.
Lemma slice_slice d a m b w : (b + w <= m)%nat -> slice (slice d a m) b w = slice d (a + b) w.
Proof. intros L. unfold slice. rewrite skipn_firstn_comm, firstn_firstn, skipn_skipn'. f_equal. lia. Qed.
Lemma memory_slice k v : view_ok v ->
  snd (view_memory k v) = slice (data_of k) (Z.to_nat (vstart v)) (Z.to_nat (items_in (zlen (data_of k)) v * isize (vw_tag v))).
Proof.
  intros V. unfold view_memory. fold (data_of k). unfold view_span, items_in, vstart. cbn zeta. destruct (vw_length v); [|reflexivity].
  destruct (_ <? _); [|reflexivity]. cbn [snd]. rewrite Z.mul_0_l. reflexivity.
Qed.
Definition chunk_items (f : dvfmt) (d : bytes) : list dvval :=
  map (fun j => dv_value widen f (of_le (slice d (j * dv_width f) (dv_width f)))) (seq 0 (length d / dv_width f)).
Definition bytes_items (t : vtag) (d : bytes) : list dvval :=
  match t with
  | vFloat16 => if py312 then chunk_items (DFloat 2) d else map (fun c => DVFloat (widen 4 c)) (halves cast32 widen (length d) d)
  | _ => chunk_items (elem_format t) d
  end.
Lemma chunks_read k v : view_ok v ->
  map (fun j => read_at widen k (elem_format (vw_tag v)) (vstart v + Z.of_nat j * isize (vw_tag v)) true) (seq 0 (Z.to_nat (items_in (zlen (data_of k)) v))) =
  chunk_items (elem_format (vw_tag v)) (snd (view_memory k v)).
Proof.
  intros V. pose proof (elem_width (vw_tag v)) as EW. pose proof (isize_pos (vw_tag v)) as P.
  pose proof (items_inside (zlen (data_of k)) v V (zlen_nonneg _)) as [I0 _].
  pose proof (items_memory k v V) as LM. unfold zlen in LM at 1. set (n := items_in _ v) in *. set (w := dv_width _) in *.
  assert (Z.to_nat n = length (snd (view_memory k v)) / w)%nat as ->.
  { apply Nat.div_unique with (r := 0%nat); nia. }
  unfold chunk_items. fold w. apply map_ext_in. intros j J. apply in_seq in J as [_ J]. cbn [plus] in J.
  assert (j < Z.to_nat n)%nat as Jn. { apply Nat.lt_le_trans with (1 := J). apply Nat.div_le_upper_bound; nia. }
  unfold read_at. fold (data_of k). f_equal. f_equal. cbn [dv_order]. rewrite memory_slice by auto. fold n w. rewrite slice_slice by nia.
  f_equal. destruct V as [O _]. unfold vstart. nia.
Qed.
Lemma items_bytes k v : view_ok v -> items k v = bytes_items (vw_tag v) (snd (view_memory k v)).
Proof.
  intros V. pose proof (items_memory_div k v V) as D. pose proof (chunks_read k v V) as C. unfold open_view.
  destruct (vw_tag v) eqn:T; cbn [block_items bytes_items]; rewrite ?T; try (rewrite D; exact C).
  - destruct py312; cbn [block_items]; [rewrite T, D; exact C|reflexivity].
  - change (isize vDataView) with 1 in *. rewrite Z.div_1_r in D. rewrite D. rewrite <- C. apply map_ext. intros j. rewrite Z.mul_1_r. reflexivity.
Qed.

(** Every view shows one list of numbers. *)
Theorem C63_shows : forall k v, view_ok v -> exists! l, shows k v l.
Proof. intros k v V. exists (items k v). split; [apply block_shows; auto|]. intros l. apply shows_unique, block_shows. auto. Qed.

(** Are both DataViews or both typed arrays? Before Python 3.12 only those can be equal. *)
Definition comparable (v v' : view) : Prop := (vw_tag v = vDataView <-> vw_tag v' = vDataView) \/ py312 = true.
Lemma view_eq_items k v k' v' : view_ok v -> view_ok v' ->
  (view_eq k v false (AView k' v') = true <-> comparable v v' /\ Forall2 equal_items (items k v) (items k' v')).
Proof.
  intros V V'. cbn [ModelViewEq.view_eq]. unfold blocks_eq. rewrite !block_tag by auto. rewrite <- mv_eq_spec.
  assert (forall t, (match t with vDataView => true | _ => false end) = true <-> t = vDataView) as D by (intros []; split; congruence).
  pose proof (D (vw_tag v)) as D1. pose proof (D (vw_tag v')) as D2. unfold comparable.
  destruct (match vw_tag v with vDataView => true | _ => false end), (match vw_tag v' with vDataView => true | _ => false end), py312;
    cbn [Bool.eqb orb]; intuition congruence.
Qed.
(** Two view objects are equal if and only if they show equally many numbers, the same one at every place. *)
Theorem C63_equal : forall k v k' v' l l', view_ok v -> view_ok v' -> shows k v l -> shows k' v' l' ->
  (view_eq k v false (AView k' v') = true <-> comparable v v' /\ Forall2 equal_items l l').
Proof.
  intros k v k' v' l l' V V' S S'. rewrite view_eq_items by auto.
  rewrite (shows_unique _ _ _ _ S (block_shows k v V)), (shows_unique _ _ _ _ S' (block_shows k' v' V')). reflexivity.
Qed.
(** A view is equal to itself, and to nothing that is not a view. *)
Theorem C63_itself : forall k v o, view_eq k v true o = true.
Proof. reflexivity. Qed.
Theorem C63_others : forall k v, view_eq k v false AnyOther = false.
Proof. reflexivity. Qed.
Theorem C63_symmetric : forall k v k' v' same, view_ok v -> view_ok v' -> view_eq k v same (AView k' v') = view_eq k' v' same (AView k v).
Proof.
  intros k v k' v' [|] V V'; [reflexivity|]. apply eq_true_iff_eq. rewrite !view_eq_items by auto. unfold comparable.
  split; intros [C F]; (split; [tauto|]); (eapply Forall2_sym'; [exact equal_items_sym|exact F]).
Qed.
Theorem C63_transitive : forall k1 v1 k2 v2 k3 v3, view_ok v1 -> view_ok v2 -> view_ok v3 ->
  view_eq k1 v1 false (AView k2 v2) = true -> view_eq k2 v2 false (AView k3 v3) = true -> view_eq k1 v1 false (AView k3 v3) = true.
Proof.
  intros k1 v1 k2 v2 k3 v3 V1 V2 V3. rewrite !view_eq_items by auto. unfold comparable. intros [C F] [C' F']. split; [tauto|].
  eapply Forall2_trans'; [exact equal_items_trans|exact F|exact F'].
Qed.
(** A view that shows a NaN is equal to no other view object, not even to a copy of itself. *)
Theorem C63_nan : forall k v l x k' v', view_ok v -> view_ok v' -> shows k v l -> In x l -> is_nan_item x -> view_eq k v false (AView k' v') = false.
Proof.
  intros k v l x k' v' V V' S I N. apply not_true_is_false. rewrite view_eq_items by auto. intros [_ F].
  rewrite <- (shows_unique _ _ _ _ S (block_shows k v V)) in F. clear S. induction F as [|a b l l' E F IH]; [contradiction|]. destruct I as [->|I]; [|auto].
  destruct E as (n & m & A & _ & B & _). unfold is_nan_item in N. destruct x; cbn in *; congruence.
Qed.
(** Views of one class with the same bytes are equal unless they show a NaN, whatever holds the bytes and wherever they are. *)
Theorem C63_same_bytes : forall k v k' v' l, view_ok v -> view_ok v' -> vw_tag v = vw_tag v' -> snd (view_memory k v) = snd (view_memory k' v') ->
  shows k v l -> shows k' v' l /\ ((forall x, In x l -> ~ is_nan_item x) -> view_eq k v false (AView k' v') = true).
Proof.
  intros k v k' v' l V V' T M S. pose proof (items_bytes k v V) as I. pose proof (items_bytes k' v' V') as I'. rewrite <- T, <- M in I'.
  assert (items k v = l) as L by (apply (shows_unique k v); [apply block_shows; auto|exact S]).
  split. { rewrite <- L, I, <- I'. apply block_shows. auto. }
  intros N. apply view_eq_items; auto. split; [left; rewrite T; reflexivity|]. rewrite I', <- I, L. clear - N.
  induction l; constructor; [apply equal_items_refl, N; left; reflexivity|apply IHl; intros; apply N; right; auto].
Qed.
(** * Integers: equal means the same bytes *)
Lemma chunks_ext w : forall n a b, length a = (n * w)%nat -> length b = (n * w)%nat ->
  (forall j, (j < n)%nat -> slice a (j * w) w = slice b (j * w) w) -> a = b.
Proof.
  induction n as [|n IH]; intros a b A B E.
  - destruct a, b; try discriminate. reflexivity.
  - rewrite <- (firstn_skipn w a), <- (firstn_skipn w b). f_equal.
    + apply (E 0%nat). lia.
    + apply IH; [rewrite skipn_length; lia|rewrite skipn_length; lia|]. intros j J. specialize (E (S j) ltac:(lia)).
      unfold slice in *. rewrite !skipn_skipn'. exact E.
Qed.
Lemma int_item_inj f n m : (match f with DFloat _ => False | _ => True end) -> (n < 256 ^ N.of_nat (dv_width f))%N -> (m < 256 ^ N.of_nat (dv_width f))%N ->
  equal_items (dv_value widen f n) (dv_value widen f m) -> n = m.
Proof.
  intros F A B (x & y & X & Y & _ & E). pose proof (pow256 (dv_width f)) as P. destruct f as [w|w|w]; [| |contradiction]; cbn [dv_value number_shown dv_width] in *; subst x y;
    cbn [same_number] in E; unfold same_value in E; rewrite Z.min_id, Z.sub_diag, Z.pow_0_r, !Z.mul_1_r in E; [|lia].
  destruct (Z.ltb_spec (Z.of_N n) (2 ^ (8 * Z.of_nat w - 1))), (Z.ltb_spec (Z.of_N m) (2 ^ (8 * Z.of_nat w - 1))); lia.
Qed.
Lemma bytes_items_inj t d d' : (match t with vFloat16 | vFloat32 | vFloat64 => False | _ => True end) -> bytes_ok d -> bytes_ok d' ->
  zlen d mod isize t = 0 -> zlen d' mod isize t = 0 -> Forall2 equal_items (bytes_items t d) (bytes_items t d') -> d = d'.
Proof.
  intros I B B' M M' F. pose proof (elem_width t) as EW. pose proof (isize_pos t) as P.
  assert (bytes_items t d = chunk_items (elem_format t) d /\ bytes_items t d' = chunk_items (elem_format t) d') as [E E'] by (destruct t; try contradiction; auto).
  assert (match elem_format t with DFloat _ => False | _ => True end) as FI by (destruct t; try contradiction; exact Logic.I).
  rewrite E, E' in F. clear E E' I. set (f := elem_format t) in *. set (w := dv_width f) in *. unfold chunk_items in F. fold w in F.
  assert (exists n, length d = n * w)%nat as [n L]. { exists (Z.to_nat (zlen d / isize t)). unfold zlen in *. pose proof (Z.div_mod (Z.of_nat (length d)) (isize t)). nia. }
  assert (exists n', length d' = n' * w)%nat as [n' L']. { exists (Z.to_nat (zlen d' / isize t)). unfold zlen in *. pose proof (Z.div_mod (Z.of_nat (length d')) (isize t)). nia. }
  rewrite L, L', !Nat.div_mul in F by lia.
  assert (n = n') as <-. { apply Forall2_len in F. rewrite !map_length, !seq_length in F. exact F. }
  apply (chunks_ext w n); auto. intros j J.
  assert (equal_items (dv_value widen f (of_le (slice d (j * w) w))) (dv_value widen f (of_le (slice d' (j * w) w)))) as Q.
  { apply (Forall2_at _ _ _ j _ _ F); rewrite nth_error_map, (nth_error_nth' _ 0%nat), seq_nth by (rewrite ?seq_length; lia); reflexivity. }
  assert (forall x, bytes_ok x -> length x = (n * w)%nat -> length (slice x (j * w) w) = w) as SL by (intros x Bx Lx; rewrite slice_length; nia).
  assert (forall x, bytes_ok x -> length x = (n * w)%nat -> (of_le (slice x (j * w) w) < 256 ^ N.of_nat w)%N) as OB.
  { intros x Bx Lx. pose proof (of_le_bound (slice x (j * w) w) (bytes_ok_slice _ _ _ Bx)) as Q1. unfold lenN in Q1. rewrite SL in Q1 by auto. exact Q1. }
  apply int_item_inj in Q; auto.
  rewrite <- (le_bytes_of_le (slice d (j * w) w)), <- (le_bytes_of_le (slice d' (j * w) w)) by (apply bytes_ok_slice; auto).
  rewrite !SL, Q by auto. reflexivity.
Qed.
Theorem C63_integers : forall k v k' v', view_ok v -> view_ok v' -> good k -> good k' -> vw_tag v = vw_tag v' -> integer_view v ->
  (view_eq k v false (AView k' v') = true <-> snd (view_memory k v) = snd (view_memory k' v')).
Proof.
  intros k v k' v' V V' G G' T I. split.
  - rewrite view_eq_items, !items_bytes by auto. rewrite <- T. intros [_ F]. apply (bytes_items_inj (vw_tag v)); auto.
    + rewrite memory_slice by auto. apply bytes_ok_slice, G.
    + rewrite memory_slice by auto. apply bytes_ok_slice, G'.
    + rewrite items_memory by auto. apply Z.mod_mul. pose proof (isize_pos (vw_tag v)). lia.
    + rewrite T. rewrite items_memory by auto. apply Z.mod_mul. pose proof (isize_pos (vw_tag v')). lia.
  - intros M. destruct (C63_same_bytes k v k' v' _ V V' T M (block_shows k v V)) as [_ Q]. apply Q.
    intros x J N. rewrite items_bytes in J by auto. unfold integer_view in I.
    assert (In x (chunk_items (elem_format (vw_tag v)) (snd (view_memory k v)))) as K by (destruct (vw_tag v); try contradiction; exact J).
    unfold chunk_items in K. apply in_map_iff in K as (j & <- & _). destruct (vw_tag v); try contradiction; cbn in N; discriminate.
Qed.
End Eq.

(** * Hashes *)
Section Hash.
Variable hash_bytes : bytes -> Z.
Variable hash_three : Z -> Z -> Z -> Z.
Notation view_hash := (view_hash hash_bytes).
Notation buffer_hash := (buffer_hash hash_bytes hash_three).
(** A view can be hashed exactly when its memory never changes; its hash is that of its bytes. *)
Theorem C63_hash : forall k v,
  match k with
  | BkBytes _ | BkInaccessible => view_hash k v = Ok (hash_bytes (snd (view_memory k v)))
  | BkBuffer b => if jb_readonly b then view_hash k v = Ok (hash_bytes (snd (view_memory k v))) else view_hash k v = Err EType
  | BkByteArray _ => view_hash k v = Err EType
  end.
Proof. intros [d|d|b|] v; unfold ModelViewEq.view_hash; cbn [mem_hashable bk_readonly]; try reflexivity. destruct (jb_readonly b); reflexivity. Qed.
(** Equal views of one integer class have equal hashes. *)
Theorem C63_hash_integers : forall cast32 widen py312 k v k' v' h h', view_ok v -> view_ok v' -> good k -> good k' -> vw_tag v = vw_tag v' -> integer_view v ->
  view_eq cast32 widen py312 k v false (AView k' v') = true -> view_hash k v = Ok h -> view_hash k' v' = Ok h' -> h = h'.
Proof.
  intros cast32 widen py312 k v k' v' h h' V V' G G' T I E. apply (C63_integers (fun _ _ => None) cast32 widen (fun _ => None) py312) in E; auto.
  unfold ModelViewEq.view_hash. rewrite E. destruct (mem_hashable k), (mem_hashable k'); congruence.
Qed.
(** Buffers are equal when they have the same bytes, maximum and resizability, whether or not they can be written. *)
Theorem C63_buffers : forall b c, buffer_eq b c = true <-> jb_data b = jb_data c /\ jb_max b = jb_max c /\ jb_resizable b = jb_resizable c.
Proof. intros b c. unfold buffer_eq. rewrite !andb_true_iff, listN_eqb_spec, Z.eqb_eq, eqb_true_iff. tauto. Qed.
Theorem C63_buffer_hash : forall b c h h', buffer_eq b c = true -> buffer_hash b = Ok h -> buffer_hash c = Ok h' -> h = h'.
Proof.
  intros b c h h' E. apply C63_buffers in E as (D & M & R). unfold ModelViewEq.buffer_hash. rewrite D, M, R.
  destruct (jb_readonly b), (jb_readonly c); congruence.
Qed.
End Hash.
(** In general equal views need not have equal hashes: JSUint8Array(b"\x01") == JSUint16Array(b"\x01\x00"), and
    JSFloat64Array over 0.0 == JSFloat64Array over -0.0, but the bytes hashed differ. *)
Theorem C63_hash_refuted : forall cast32 widen py312, exists k v k' v' d d', view_ok v /\ view_ok v' /\ good k /\ good k' /\
  view_eq cast32 widen py312 k v false (AView k' v') = true /\ d <> d' /\
  forall hash_bytes, view_hash hash_bytes k v = Ok (hash_bytes d) /\ view_hash hash_bytes k' v' = Ok (hash_bytes d').
Proof.
  intros cast32 widen py312. exists (BkBytes [1%N]), (mkView vUint8 0 None false), (BkBytes [1%N; 0%N]), (mkView vUint16 0 None false), [1%N], [1%N; 0%N].
  repeat split; try (cbn; lia); try discriminate; try (repeat constructor; fail); destruct py312; vm_compute; reflexivity.
Qed.
Theorem C63_hash_zeros_refuted : forall cast32 widen py312, exists k k' v d d', view_ok v /\ good k /\ good k' /\
  view_eq cast32 widen py312 k v false (AView k' v) = true /\ d <> d' /\
  forall hash_bytes, view_hash hash_bytes k v = Ok (hash_bytes d) /\ view_hash hash_bytes k' v = Ok (hash_bytes d').
Proof.
  intros cast32 widen py312. set (d := zeros 8). set (d' := zeros 7 ++ [128%N]). exists (BkBytes d), (BkBytes d'), (mkView vFloat64 0 None false), d, d'.
  repeat split; try (cbn; lia); try discriminate; try (repeat constructor; fail); destruct py312; vm_compute; reflexivity.
Qed.
(** Before Python 3.12 a DataView and a Uint8Array over one buffer are not equal, from 3.12 on they are. *)
Theorem C63_data_views : forall cast32 widen py312, exists k v v', view_ok v /\ view_ok v' /\ vw_tag v = vDataView /\ vw_tag v' = vUint8 /\ good k /\
  view_eq cast32 widen py312 k v false (AView k v') = py312.
Proof.
  intros cast32 widen py312. exists (BkBytes [1%N; 2%N]), (mkView vDataView 0 None false), (mkView vUint8 0 None false).
  repeat split; try (cbn; lia); try (repeat constructor; fail); destruct py312; vm_compute; reflexivity.
Qed.
(** Views of other classes and places that are equal: JSInt16Array over b"\xff\xff\x02\x00" and a part of a bytearray as
    JSFloat64Array, -1.0 and 2.0. *)
Example C63_case : forall py312,
  let k := BkBytes [255%N; 255%N; 2%N; 0%N] in let k' := BkByteArray (zeros 8 ++ [0%N; 0%N; 0%N; 0%N; 0%N; 0%N; 240%N; 191%N] ++ zeros 7 ++ [64%N]) in
  view_eq (fun b => b) (fun _ b => b) py312 k (mkView vInt16 0 None false) false (AView k' (mkView vFloat64 1 (Some 2) true)) = true.
Proof. intros []; vm_compute; reflexivity. Qed.
Print Assumptions C63_shows.
Print Assumptions C63_equal.
Print Assumptions C63_itself.
Print Assumptions C63_others.
Print Assumptions C63_symmetric.
Print Assumptions C63_transitive.
Print Assumptions C63_nan.
Print Assumptions C63_same_bytes.
Print Assumptions C63_integers.
Print Assumptions C63_hash.
Print Assumptions C63_hash_integers.
Print Assumptions C63_buffers.
Print Assumptions C63_buffer_hash.
Print Assumptions C63_hash_refuted.
Print Assumptions C63_hash_zeros_refuted.
Print Assumptions C63_data_views.
