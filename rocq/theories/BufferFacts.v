(** Facts about buffers and views. *)
From Coq Require Import List NArith ZArith Bool Lia ZifyBool ZifyNat ZifyN.
From Verif Require Import Base ModelTags ModelBuffer SpecBuffer.
Import ListNotations.
Open Scope Z_scope.

Lemma isize_pos t : 0 < isize t.
Proof. destruct t; reflexivity. Qed.
Lemma zlen_nonneg d : 0 <= zlen d.
Proof. unfold zlen. lia. Qed.
Lemma slice_length d a n : length (slice d a n) = Nat.min n (length d - a).
Proof. unfold slice. rewrite firstn_length, skipn_length. lia. Qed.
Lemma slice_part d a n : (a <= length d)%nat -> part_of (slice d a n) d (Z.of_nat a).
Proof.
  intros L. exists (firstn a d), (skipn n (skipn a d)). split.
  - unfold slice. rewrite firstn_skipn, firstn_skipn. reflexivity.
  - rewrite firstn_length. lia.
Qed.

(** ** Resizing *)
Lemma resize_spec b n b' : jb_resizable b = true -> jsbuf_resize b n = Ok b' ->
  0 <= n <= jb_max b /\ resized (jb_data b) n (jb_data b') /\ jb_max b' = jb_max b /\ jb_resizable b' = true.
Proof.
  intros R H. unfold jsbuf_resize in H. rewrite R in H. cbn [negb] in H.
  destruct (negb ((0 <=? n) && (n <=? jb_max b))) eqn:B; [discriminate|]. injection H as <-. cbn [jb_data jb_max jb_resizable].
  split; [lia|]. split; [|auto]. unfold resized. destruct (zlen (jb_data b) <? n) eqn:L; unfold zlen in *.
  - rewrite app_length, zeros_length. split; [lia|]. intros i I.
    destruct (Nat.lt_ge_cases i (length (jb_data b))) as [C|C].
    + rewrite nth_error_app1 by lia. apply nth_error_nth'. lia.
    + rewrite nth_error_app2 by lia. rewrite nth_overflow by lia.
      unfold zeros. rewrite (nth_error_nth' _ 0%N) by (rewrite repeat_length; lia). rewrite nth_repeat. reflexivity.
  - rewrite firstn_length. split; [lia|]. intros i I.
    rewrite <- (firstn_skipn (Z.to_nat n) (jb_data b)) at 2.
    rewrite app_nth1 by (rewrite firstn_length; lia). apply nth_error_nth'. rewrite firstn_length. lia.
Qed.
Lemma resize_error b n e : jb_resizable b = true -> jsbuf_resize b n = Err e -> e = EByteLength /\ ~ (0 <= n <= jb_max b).
Proof.
  intros R H. unfold jsbuf_resize in H. rewrite R in H. cbn [negb] in H.
  destruct (negb ((0 <=? n) && (n <=? jb_max b))) eqn:B; [|discriminate]. injection H as <-. split; [reflexivity|lia].
Qed.

(** A run of resize calls; a failing call leaves the buffer as it was. *)
Fixpoint resizes (b : jsbuf) (ns : list Z) : list (Z * bool) * jsbuf :=
  match ns with
  | [] => ([], b)
  | n :: r =>
      match jsbuf_resize b n with
      | Ok b1 => let '(tr, b2) := resizes b1 r in ((n, true) :: tr, b2)
      | Err _ => let '(tr, b2) := resizes b r in ((n, false) :: tr, b2)
      end
  end.
Lemma resizes_history ns : forall b tr b', jb_resizable b = true -> zlen (jb_data b) <= jb_max b -> resizes b ns = (tr, b') ->
  map fst tr = ns /\ resize_history (jb_max b) (jb_data b) tr (jb_data b') /\ jb_max b' = jb_max b /\
  jb_resizable b' = true /\ zlen (jb_data b') <= jb_max b.
Proof.
  induction ns as [|n ns IH]; intros b tr b' R L H; cbn [resizes] in H.
  - injection H as <- <-. split; [reflexivity|]. split; [constructor|auto].
  - destruct (jsbuf_resize b n) as [b1|e] eqn:E.
    + destruct (resize_spec b n b1 R E) as [B [RS [M R1]]].
      destruct (resizes b1 ns) as [tr1 b2] eqn:E2. injection H as <- <-.
      destruct (IH b1 tr1 b2 R1) as [T [RH [M2 [R2 L2]]]]; [destruct RS; unfold zlen in *; rewrite M; lia|exact E2|].
      rewrite M in *. split; [cbn; congruence|]. split; [econstructor; eauto|auto].
    + destruct (resize_error b n e R E) as [_ B]. destruct (resizes b ns) as [tr1 b2] eqn:E2. injection H as <- <-.
      destruct (IH b tr1 b2 R L E2) as [T [RH REST]]. split; [cbn; congruence|]. split; [apply rh_rejected; auto|exact REST].
Qed.
Lemma jsbuf_view_all b : zlen (jb_data b) <= jb_max b -> jsbuf_view b = jb_data b.
Proof. intros L. unfold jsbuf_view, zlen in *. apply firstn_all2. lia. Qed.

(** ** Views *)
Definition view_ok (v : view) : Prop := 0 <= vw_offset v /\ match vw_length v with Some l => 0 <= l | None => True end.
Lemma view_new_ok t o l r v : view_new t o l r = Ok v ->
  view_ok v /\ v = mkView t o l r.
Proof.
  unfold view_new. destruct (o <? 0) eqn:A; [discriminate|]. destruct l as [l|].
  - destruct (l <? 0) eqn:B; [discriminate|]. intros H. injection H as <-. unfold view_ok. cbn. split; [lia|reflexivity].
  - intros H. injection H as <-. unfold view_ok. cbn. split; [lia|reflexivity].
Qed.

Definition data_of (k : backing) : bytes := match bk_data k with Some d => d | None => [] end.

Lemma view_memory_spec k v inrange b : view_ok v -> view_memory k v = (inrange, b) ->
  let s := isize (vw_tag v) in let start := vw_offset v * s in
  let want := match vw_length v with Some l => Some (l * s) | None => None end in
  (inrange = true <-> fits (zlen (data_of k)) start want) /\
  (inrange = false -> b = []) /\
  (inrange = true -> part_of b (data_of k) start) /\
  (inrange = true -> zlen b = match want with Some n => n | None => (zlen (data_of k) - start) / s * s end).
Proof.
  intros [O L] H. pose proof (isize_pos (vw_tag v)) as P. unfold view_memory in H. fold (data_of k) in H.
  unfold view_span in H. cbn zeta. set (s := isize (vw_tag v)) in *.
  assert (0 <= vw_offset v * s) as OS by nia.
  destruct (vw_length v) as [l|].
  - assert (0 <= l * s) as LS by nia. unfold fits.
    destruct (zlen (data_of k) <? vw_offset v * s + l * s) eqn:C; injection H as <- <-.
    + split; [split; [discriminate|lia]|]. split; [intros _; reflexivity|]. split; discriminate.
    + assert ((vw_offset v * s <=? zlen (data_of k)) = true) as -> by lia. unfold zlen in *.
      split; [split; [lia|auto]|]. split; [discriminate|]. split.
      * intros _. match goal with |- part_of (slice ?d ?a ?m) _ _ => pose proof (slice_part d a m) as SP end.
        rewrite Z2Nat.id in SP by lia. apply SP. lia.
      * intros _. rewrite slice_length. lia.
  - unfold fits. injection H as <- <-. split; [lia|]. unfold zlen in *.
    set (n := Z.of_nat (length (data_of k))) in *.
    destruct (vw_offset v * s <=? n) eqn:C.
    + replace (Z.max 0 (n - vw_offset v * s)) with (n - vw_offset v * s) by lia.
      pose proof (Z.mul_div_le (n - vw_offset v * s) s P). assert (0 <= (n - vw_offset v * s) / s) by (apply Z.div_pos; lia).
      split; [discriminate|]. split.
      * intros _. match goal with |- part_of (slice ?d ?a ?m) _ _ => pose proof (slice_part d a m) as SP end.
        rewrite Z2Nat.id in SP by lia. apply SP. lia.
      * intros _. rewrite slice_length. nia.
    + split; [|split; discriminate]. intros _. replace (Z.max 0 (n - vw_offset v * s)) with 0 by lia.
      rewrite Z.div_0_l by lia. reflexivity.
Qed.
Lemma view_memory_items k v inrange b : view_ok v -> view_memory k v = (inrange, b) -> zlen b mod isize (vw_tag v) = 0.
Proof.
  intros V H. pose proof (view_memory_spec k v inrange b V H) as S. cbn zeta in S. destruct S as [_ [F [_ T]]].
  pose proof (isize_pos (vw_tag v)). destruct inrange.
  - rewrite (T eq_refl). destruct (vw_length v); apply Z.mod_mul; lia.
  - rewrite (F eq_refl). reflexivity.
Qed.

(** What JavaScript requires of the arguments when a view is created over an accessible buffer. *)
Definition creatable (t : vtag) (n : Z) (resizable : bool) (off : Z) (len : option Z) : Prop :=
  0 <= off /\ off mod isize t = 0 /\ fits n off len /\
  match len with
  | Some l => 0 <= l /\ l mod isize t = 0
  | None => resizable = true \/ n mod isize t = 0
  end.
Lemma from_bytes_ok t k off len ro v d : bk_data k = Some d -> view_from_bytes t k off len ro = Ok v ->
  creatable t (zlen d) (bk_resizable k) off len /\ view_ok v /\ vw_tag v = t /\
  vw_offset v * isize t = off /\ vw_length v = match len with Some n => Some (n / isize t) | None => None end.
Proof.
  intros D H. unfold view_from_bytes in H. pose proof (isize_pos t) as P. set (s := isize t) in *.
  destruct (negb (off mod s =? 0)) eqn:C1; [discriminate|].
  destruct (match len with Some n => negb (n mod s =? 0) | None => false end) eqn:C2; [discriminate|].
  apply bind_Ok in H as [w [W H]]. destruct (view_new_ok _ _ _ _ _ W) as [VO ->]. rewrite D in H.
  assert (off / s * s = off) as OS. { pose proof (Z.div_mod off s). nia. }
  match type of H with (if ?c then _ else _) = _ => destruct c eqn:C3; [discriminate|] end. injection H as <-.
  cbn [vw_tag vw_offset vw_length]. split; [|auto].
  unfold view_byte_offset, view_byte_length, view_in_range in C3.
  destruct (view_memory k (mkView t (off / s) match len with Some n => Some (n / s) | None => None end ro)) as [inrange b] eqn:M.
  pose proof (view_memory_spec _ _ _ _ VO M) as S. cbn zeta in S. cbn [vw_tag vw_offset vw_length fst snd] in *. fold s in S, C3.
  unfold data_of in S. rewrite D in S. rewrite OS in *. destruct S as [F [NF [_ T]]]. destruct VO as [VO1 VO2]. cbn [vw_offset vw_length] in *.
  unfold view_tracking in C3. cbn [vw_length] in C3. assert (0 <= off) as O0 by nia. unfold creatable. fold s. split; [exact O0|]. split; [lia|].
  destruct len as [l|].
  - assert (l / s * s = l) as LS. { pose proof (Z.div_mod l s). nia. } rewrite LS in *. assert (0 <= l) as L0 by nia.
    assert (fits (zlen d) off (Some l)) as FT.
    { destruct inrange; [apply F; reflexivity|]. exfalso. rewrite (NF eq_refl) in C3. change (zlen []) with 0 in C3.
      assert (off = 0 /\ l = 0) as [-> ->] by lia. assert (false = true); [|discriminate]. apply F. unfold fits. pose proof (zlen_nonneg d). lia. }
    split; [exact FT|]. split; [exact L0|lia].
  - destruct inrange.
    + split; [apply F; reflexivity|]. destruct (bk_resizable k); [auto|right; cbn in C3; lia].
    + split.
      * assert (off = 0) as -> by lia. unfold fits. pose proof (zlen_nonneg d). lia.
      * destruct (bk_resizable k); [auto|right; cbn in C3; lia].
Qed.
Lemma from_bytes_creatable t k off len ro d : bk_data k = Some d ->
  creatable t (zlen d) (bk_resizable k) off len -> exists v, view_from_bytes t k off len ro = Ok v.
Proof.
  intros D [O [OM [FT LC]]]. unfold view_from_bytes. pose proof (isize_pos t) as P. set (s := isize t) in *.
  rewrite (proj2 (Z.eqb_eq _ _) OM). cbn [negb].
  assert (off / s * s = off) as OS. { pose proof (Z.div_mod off s). nia. }
  assert (match len with Some n => negb (n mod s =? 0) | None => false end = false) as ->.
  { destruct len as [l|]; [|reflexivity]. destruct LC as [_ ->]. reflexivity. }
  set (v := mkView t (off / s) match len with Some n => Some (n / s) | None => None end ro).
  assert (view_ok v) as VO. { split; cbn; [apply Z.div_pos; lia|]. destruct len; [apply Z.div_pos; lia|exact I]. }
  assert (view_new t (off / s) match len with Some n => Some (n / s) | None => None end ro = Ok v) as ->.
  { unfold view_new. destruct VO as [V1 V2]. cbn [v vw_offset vw_length] in V1, V2.
    rewrite (proj2 (Z.ltb_ge _ _) V1). destruct len; [rewrite (proj2 (Z.ltb_ge _ _) V2)|]; reflexivity. }
  cbn [bind]. rewrite D.
  unfold view_byte_offset, view_byte_length, view_in_range. destruct (view_memory k v) as [inrange b] eqn:M.
  pose proof (view_memory_spec _ _ _ _ VO M) as S. cbn zeta in S. cbn [v vw_tag vw_offset vw_length fst snd] in *.
  fold s in S |- *. unfold data_of in S. rewrite D, OS in S. destruct S as [F [_ [_ T]]]. rewrite OS. unfold view_tracking. cbn [vw_length].
  destruct len as [l|].
  - assert (l / s * s = l) as LS. { pose proof (Z.div_mod l s). nia. } rewrite LS in *.
    assert (inrange = true) as -> by (apply F; exact FT). rewrite (T eq_refl). exists v.
    rewrite !Z.ltb_irrefl. reflexivity.
  - assert (inrange = true) as -> by (apply F; exact FT). exists v. rewrite Z.ltb_irrefl.
    destruct LC as [->|E]; [reflexivity|]. rewrite (proj2 (Z.eqb_eq _ _) E). rewrite andb_false_r. reflexivity.
Qed.
Lemma from_bytes_err t k off len ro e d : bk_data k = Some d -> view_from_bytes t k off len ro = Err e ->
  (e = EItemSize \/ e = EValue \/ e = EBounds) /\ ~ creatable t (zlen d) (bk_resizable k) off len.
Proof.
  intros D H. split.
  - unfold view_from_bytes in H. destruct (negb (off mod isize t =? 0)); [injection H as <-; auto|].
    destruct (match len with Some n => negb (n mod isize t =? 0) | None => false end); [injection H as <-; auto|].
    apply bind_Err in H as [H|[w [W H]]].
    + unfold view_new in H. destruct (off / isize t <? 0); [injection H as <-; auto|].
      destruct (match (match len with Some n => Some (n / isize t) | None => None end) with Some l => l <? 0 | None => false end); [injection H as <-; auto|discriminate].
    + rewrite D in H. match type of H with (if ?c then _ else _) = _ => destruct c; [injection H as <-; auto|discriminate] end.
  - intros C. destruct (from_bytes_creatable t k off len ro d D C) as [v E]. congruence.
Qed.

(** ** DataView *)
Lemma splice_patched d pos bs : (pos + length bs <= length d)%nat -> patched d pos bs (splice d pos bs).
Proof.
  intros L. unfold splice, patched. split.
  - rewrite !app_length, firstn_length, skipn_length. lia.
  - intros i. destruct (Nat.leb pos i) eqn:A; cbn [andb].
    + rewrite nth_error_app2 by (rewrite firstn_length; lia). rewrite firstn_length, Nat.min_l by lia.
      destruct (Nat.ltb i (pos + length bs)) eqn:B.
      * rewrite nth_error_app1 by lia. reflexivity.
      * rewrite nth_error_app2 by lia.
        rewrite <- (firstn_skipn (pos + length bs) d) at 2.
        rewrite nth_error_app2 by (rewrite firstn_length; lia). rewrite firstn_length, Nat.min_l by lia.
        f_equal. lia.
    + rewrite nth_error_app1 by (rewrite firstn_length; lia).
      rewrite <- (firstn_skipn pos d) at 2. rewrite nth_error_app1 by (rewrite firstn_length; lia). reflexivity.
Qed.
Lemma splice_length d pos bs : (pos + length bs <= length d)%nat -> length (splice d pos bs) = length d.
Proof. intros L. apply splice_patched. exact L. Qed.
Lemma splice_app pre mid post pos bs : (pos + length bs <= length mid)%nat ->
  splice (pre ++ mid ++ post) (length pre + pos) bs = pre ++ splice mid pos bs ++ post.
Proof.
  intros L. unfold splice. rewrite firstn_app_2. rewrite <- !app_assoc. f_equal.
  rewrite firstn_app. replace (pos - length mid)%nat with 0%nat by lia. cbn [firstn]. rewrite app_nil_r. f_equal. f_equal.
  replace (length pre + pos + length bs)%nat with (length pre + (pos + length bs))%nat by lia.
  rewrite skipn_app. rewrite (@skipn_all2 _ (length pre + (pos + length bs)) pre) by lia. cbn [app].
  replace (length pre + (pos + length bs) - length pre)%nat with (pos + length bs)%nat by lia.
  rewrite skipn_app. replace (pos + length bs - length mid)%nat with 0%nat by lia. reflexivity.
Qed.
Lemma slice_splice d pos bs : (pos + length bs <= length d)%nat -> slice (splice d pos bs) pos (length bs) = bs.
Proof.
  intros L. unfold slice, splice. rewrite skipn_app, skipn_all2 by (rewrite firstn_length; lia).
  rewrite firstn_length, Nat.min_l by lia. rewrite Nat.sub_diag. cbn [app skipn].
  rewrite firstn_app, firstn_all, Nat.sub_diag. cbn [firstn]. apply app_nil_r.
Qed.

(** Writing within the memory of a view writes the same bytes to its memory and leaves the span alone. *)
Lemma view_memory_write k v b inrange pos bs : view_ok v -> (match k with BkBuffer j => zlen (jb_data j) <= jb_max j | _ => True end) ->
  view_memory k v = (inrange, b) -> (0 < length bs)%nat -> (pos + length bs <= length b)%nat ->
  let start := Z.to_nat (vw_offset v * isize (vw_tag v)) in
  view_memory (bk_write k (start + pos) bs) v = (inrange, splice b pos bs) /\
  patched (data_of k) (start + pos) bs (data_of (bk_write k (start + pos) bs)).
Proof.
  intros VO BO M NB L start. pose proof (view_memory_spec k v inrange b VO M) as S. cbn zeta in S.
  destruct S as [F [NF [PT _]]]. destruct inrange; [|rewrite (NF eq_refl) in L; cbn in L; lia].
  destruct (PT eq_refl) as [pre [post [D LP]]].
  assert (start = length pre) as ES by (unfold start; lia).
  assert (data_of (bk_write k (start + pos) bs) = splice (data_of k) (start + pos) bs) as DW.
  { unfold data_of. destruct k as [d|d|j|]; cbn [bk_write bk_data]; try reflexivity.
    - rewrite !jsbuf_view_all; [reflexivity|exact BO|]. cbn [jb_data jb_max]. unfold zlen in *. rewrite splice_length; [lia|].
      unfold data_of in D. cbn [bk_data] in D. rewrite jsbuf_view_all in D by exact BO. rewrite D, !app_length. lia.
    - unfold data_of in D. cbn [bk_data] in D. destruct pre; [|discriminate]. destruct b; [cbn in L; lia|discriminate]. }
  rewrite DW. assert (length (data_of k) = length pre + (length b + length post))%nat as LD by (rewrite D, !app_length; lia).
  split; [|apply splice_patched; lia].
  unfold view_memory in M |- *. fold (data_of k) in M. fold (data_of (bk_write k (start + pos) bs)).
  rewrite DW. assert (zlen (splice (data_of k) (start + pos) bs) = zlen (data_of k)) as ->.
  { unfold zlen. rewrite splice_length; [reflexivity|lia]. }
  destruct (view_span (zlen (data_of k)) v) as [[i st] n] eqn:SP. injection M as -> SB.
  assert (st = vw_offset v * isize (vw_tag v)) as ->.
  { unfold view_span in SP. destruct (vw_length v); [destruct (_ <? _)|]; congruence. }
  fold start in SB |- *. f_equal. rewrite ES, D, splice_app by lia. rewrite D, ES in SB.
  assert (length (splice b pos bs) = length b) as LB by (apply splice_length; lia).
  unfold slice in *. rewrite skipn_app_length in *. rewrite firstn_app in SB |- *. rewrite LB.
  assert (firstn (Z.to_nat n) b = b /\ firstn (Z.to_nat n - length b) post = []) as [Q1 Q2].
  { assert (length (firstn (Z.to_nat n) b) + length (firstn (Z.to_nat n - length b) post) = length b)%nat as LL
      by (rewrite <- app_length, SB; reflexivity). rewrite !firstn_length in LL.
    destruct (Nat.le_gt_cases (length b) (Z.to_nat n)) as [C|C].
    - split; [apply firstn_all2; lia|]. apply length_zero_iff_nil. rewrite firstn_length. lia.
    - exfalso. lia. }
  rewrite Q2, app_nil_r. apply firstn_all2.
  assert (length (firstn (Z.to_nat n) b) = length b) as Q3 by (rewrite Q1; reflexivity). rewrite firstn_length in Q3. lia.
Qed.

Lemma dv_order_length l bs : length (dv_order l bs) = length bs.
Proof. destruct l; cbn; [reflexivity|apply rev_length]. Qed.
Lemma dv_order_involutive l bs : dv_order l (dv_order l bs) = bs.
Proof. destruct l; cbn; [reflexivity|apply rev_involutive]. Qed.
Lemma dv_order_other l bs : dv_order (negb l) bs = rev (dv_order l bs).
Proof. destruct l; cbn; [reflexivity|rewrite rev_involutive; reflexivity]. Qed.

Section DV.
Variable narrow : nat -> N -> option N.
Variable widen : nat -> N -> N.
(** Does the format represent the value? Integers by range; narrow floats if conversion is exact. *)
Definition representable (f : dvfmt) (x : dvval) : Prop :=
  match f, x with
  | DUnsigned w, DVInt z => 0 <= z < 2 ^ (8 * Z.of_nat w)
  | DSigned w, DVInt z => - 2 ^ (8 * Z.of_nat w - 1) <= z < 2 ^ (8 * Z.of_nat w - 1)
  | DFloat w, DVFloat b =>
      if Nat.eqb w 8 then (b < 2 ^ 64)%N else exists p, narrow w b = Some p /\ widen w p = b /\ (p < 256 ^ N.of_nat w)%N
  | _, _ => False
  end.
Lemma dv_bits_value f x : dv_format f = true -> representable f x ->
  exists n, dv_bits narrow f x = Ok n /\ dv_value widen f n = x /\ (n < 256 ^ N.of_nat (dv_width f))%N.
Proof.
  assert (forall w, In w [1; 2; 4; 8]%nat -> (256 ^ N.of_nat w)%N = Z.to_N (2 ^ (8 * Z.of_nat w))) as PW.
  { intros w I. repeat (destruct I as [<-|I]; [reflexivity|]). destruct I. }
  intros FM R. unfold dv_format in FM. destruct f as [w|w|w]; destruct x as [z|b]; cbn [representable] in R; try contradiction; cbn [dv_bits dv_value dv_width].
  - apply existsb_exists in FM as [y [I E]]. apply Nat.eqb_eq in E as <-.
    rewrite (proj2 (Z.leb_le _ _) (proj1 R)), (proj2 (Z.ltb_lt _ _) (proj2 R)). cbn [andb].
    eexists. split; [reflexivity|]. rewrite (PW w I).
    assert (2 ^ (8 * Z.of_nat w) = 2 * 2 ^ (8 * Z.of_nat w - 1)) as HP.
    { rewrite <- Z.pow_succ_r; [f_equal; lia|]. repeat (destruct I as [<-|I]; [lia|]). destruct I. }
    set (h := 2 ^ (8 * Z.of_nat w - 1)) in *. set (p := 2 ^ (8 * Z.of_nat w)) in *.
    assert (0 < h) by (unfold h; apply Z.pow_pos_nonneg; repeat (destruct I as [<-|I]; [lia|]); destruct I).
    assert (0 <= z mod p < p) as MB by (apply Z.mod_pos_bound; lia).
    rewrite Z2N.id by lia. split; [|lia]. f_equal. destruct (z mod p <? h) eqn:C.
    + destruct (Z.leb_spec 0 z); [rewrite Z.mod_small; lia|]. exfalso.
      replace z with (z + p - 1 * p) in C by lia. rewrite Zminus_mod, Z.mod_mul, Z.sub_0_r, Z.mod_mod in C by lia.
      rewrite Z.mod_small in C by lia. lia.
    + destruct (Z.leb_spec 0 z); [rewrite Z.mod_small in C by lia; lia|].
      replace z with (z + p + (-1) * p) at 1 by lia. rewrite Z.mod_add by lia. rewrite Z.mod_small by lia. lia.
  - apply existsb_exists in FM as [y [I E]]. apply Nat.eqb_eq in E as <-.
    rewrite (proj2 (Z.leb_le _ _) (proj1 R)), (proj2 (Z.ltb_lt _ _) (proj2 R)). cbn [andb].
    eexists. split; [reflexivity|]. rewrite (PW w I). rewrite Z2N.id by lia. split; [reflexivity|lia].
  - apply existsb_exists in FM as [y [I E]]. apply Nat.eqb_eq in E as <-. cbn [In] in I.
    destruct I as [<-|[<-|[<-|[]]]]; cbn [Nat.eqb] in R.
    + destruct R as [p [-> [W B]]]. exists p. rewrite W. auto.
    + destruct R as [p [-> [W B]]]. exists p. rewrite W. auto.
    + exists b. auto.
Qed.
Lemma dv_format_width f : dv_format f = true -> (0 < dv_width f)%nat.
Proof. destruct f as [w|w|w]; cbn [dv_format dv_width]; intros F; apply existsb_exists in F as [y [I E]]; apply Nat.eqb_eq in E as <-; cbn [In] in I; lia. Qed.
End DV.
