(** C42, C43, C44: buffers and views. *)
From Coq Require Import List NArith ZArith Bool Lia ZifyBool ZifyNat ZifyN.
From Verif Require Import Base ModelTags ModelBuffer SpecBuffer BufferFacts.
Import ListNotations.
Open Scope Z_scope.

(** C42. Whatever the buffer holds now, the exposed bytes lie inside it at the view's offset, are whole
    items and are empty if the requested range does not fit. *)
Theorem C42_views_stay_inside : forall k t item_offset item_length ro v inrange b,
  view_new t item_offset item_length ro = Ok v -> view_memory k v = (inrange, b) ->
  let size := Z.of_N (itemsize t) in let start := item_offset * size in
  let want := match item_length with Some l => Some (l * size) | None => None end in
  (Z.of_nat (length b) mod size = 0) /\
  (inrange = true <-> fits (Z.of_nat (length (data_of k))) start want) /\
  (inrange = false -> b = []) /\
  (inrange = true -> part_of b (data_of k) start /\
     match want with
     | Some n => Z.of_nat (length b) = n
     | None => Z.of_nat (length (data_of k)) - start - size < Z.of_nat (length b)
     end).
Proof.
  intros k t o l ro v inrange b V M. destruct (view_new_ok _ _ _ _ _ V) as [VO ->].
  pose proof (view_memory_items _ _ _ _ VO M) as I. pose proof (view_memory_spec _ _ _ _ VO M) as S.
  cbn zeta in *. cbn [vw_tag vw_offset vw_length] in *. unfold isize, zlen in *. destruct S as [F [NF [P L]]].
  pose proof (isize_pos t) as SP. unfold isize in SP.
  split; [exact I|]. split; [exact F|]. split; [exact NF|]. intros T. split; [exact (P T)|].
  specialize (L T). destruct l as [l|]; [exact L|]. rewrite L.
  set (x := Z.of_nat (length (data_of k)) - o * Z.of_N (itemsize t)). set (s := Z.of_N (itemsize t)) in *.
  pose proof (Z.div_mod x s). pose proof (Z.mod_pos_bound x s). nia.
Qed.
Print Assumptions C42_views_stay_inside.

(** The objects whose size can change, and those that cannot be written. *)
Inductive size_changes : backing -> Prop :=
| sc_bytearray d : size_changes (BkByteArray d)
| sc_buffer b : jb_resizable b = true -> size_changes (BkBuffer b).
Inductive read_only : backing -> Prop :=
| ro_bytes d : read_only (BkBytes d)
| ro_buffer b : jb_readonly b = true -> read_only (BkBuffer b).
Lemma size_changes_iff k : size_changes k <-> bk_resizable k = true.
Proof.
  split; [intros []; auto|]. destruct k as [d|d|b|]; cbn; intros E; try discriminate; [apply sc_bytearray|apply sc_buffer; exact E].
Qed.
Lemma read_only_iff k : read_only k <-> bk_readonly k = true.
Proof.
  split; [intros []; auto|]. destruct k as [d|d|b|]; cbn; intros E; try discriminate; [apply ro_bytes|apply ro_buffer; exact E].
Qed.
(** create_view succeeds exactly on ranges JavaScript accepts, and then exposes exactly the range asked. *)
Theorem C42_create_view_exact : forall k t off len ro d r, bk_data k = Some d -> (r = true <-> size_changes k) ->
  match view_from_bytes t k off len ro with
  | Ok v => creatable t (Z.of_nat (length d)) (r) off len /\
      exists b, view_memory k v = (true, b) /\ part_of b d off /\
        match len with
        | Some n => Z.of_nat (length b) = n
        | None => Z.of_nat (length d) - off - Z.of_N (itemsize t) < Z.of_nat (length b) /\
                  (r = false -> Z.of_nat (length b) = Z.of_nat (length d) - off)
        end
  | Err e => (e = EItemSize \/ e = EValue \/ e = EBounds) /\ ~ creatable t (Z.of_nat (length d)) (r) off len
  end.
Proof.
  intros k t off len ro d r D SC. rewrite size_changes_iff in SC. assert (r = bk_resizable k) as -> by (destruct r, (bk_resizable k); intuition congruence). clear SC.
  destruct (view_from_bytes t k off len ro) as [v|e] eqn:E.
  - destruct (from_bytes_ok _ _ _ _ _ _ _ D E) as [C [VO [T [O L]]]]. split; [exact C|].
    destruct (view_memory k v) as [inrange b] eqn:M. pose proof (view_memory_spec _ _ _ _ VO M) as S. cbn zeta in S.
    rewrite T, O, L in S. unfold data_of in S. rewrite D in S. destruct S as [F [_ [P W]]]. unfold zlen in *.
    destruct C as [C0 [C1 [C2 C3]]]. pose proof (isize_pos t) as SP.
    assert (inrange = true) as ->.
    { apply F. destruct len as [n|]; [|exact C2]. destruct C3 as [_ C3].
      replace (n / isize t * isize t) with n; [exact C2|]. pose proof (Z.div_mod n (isize t)). lia. }
    exists b. split; [reflexivity|]. split; [apply P; reflexivity|]. specialize (W eq_refl).
    destruct len as [n|].
    + rewrite W. pose proof (Z.div_mod n (isize t)). lia.
    + unfold isize in *. set (s := Z.of_N (itemsize t)) in *. set (x := Z.of_nat (length d) - off) in *.
      pose proof (Z.div_mod x s) as DM. pose proof (Z.mod_pos_bound x s) as MB. split; [nia|].
      intros R. destruct C3 as [C3|C3]; [congruence|]. assert (x mod s = 0) as X0; [|nia].
      unfold x. rewrite Zminus_mod, C3, C1. reflexivity.
  - exact (from_bytes_err _ _ _ _ _ _ _ D E).
Qed.
Print Assumptions C42_create_view_exact.

(** The same for a view of a resizable buffer after any resizes. *)
Theorem C42_views_follow_resizes : forall t b off len ro v ns tr b',
  jb_resizable b = true -> zlen (jb_data b) <= jb_max b ->
  view_from_bytes t (BkBuffer b) off len ro = Ok v -> resizes b ns = (tr, b') ->
  exists inrange mem, view_memory (BkBuffer b') v = (inrange, mem) /\
    (inrange = true <-> fits (Z.of_nat (length (jb_data b'))) off len) /\
    (inrange = false -> mem = []) /\
    (inrange = true -> part_of mem (jb_data b') off /\
       match len with
       | Some n => Z.of_nat (length mem) = n
       | None => Z.of_nat (length (jb_data b')) - off - Z.of_N (itemsize t) < Z.of_nat (length mem)
       end).
Proof.
  intros t b off len ro v ns tr b' R L E RS.
  destruct (resizes_history ns b tr b' R L RS) as [_ [_ [M2 [_ L2]]]].
  destruct (from_bytes_ok t (BkBuffer b) off len ro v _ eq_refl E) as [[C0 [C1 [_ C3]]] [VO [T [O LN]]]].
  destruct (view_memory (BkBuffer b') v) as [inrange mem] eqn:M. exists inrange, mem. split; [reflexivity|].
  pose proof (view_memory_spec _ _ _ _ VO M) as S. cbn zeta in S. rewrite T, O, LN in S.
  unfold data_of in S. cbn [bk_data] in S. rewrite jsbuf_view_all in S by lia. unfold zlen, isize in *. pose proof (isize_pos t) as SP. unfold isize in *.
  destruct S as [F [NF [P W]]]. set (s := Z.of_N (itemsize t)) in *. destruct len as [n|].
  - assert (n / s * s = n) as NS by (pose proof (Z.div_mod n s); lia). rewrite NS in *. auto.
  - split; [exact F|]. split; [exact NF|]. intros I. split; [auto|]. rewrite (W I).
    set (x := Z.of_nat (length (jb_data b')) - off). pose proof (Z.div_mod x s). pose proof (Z.mod_pos_bound x s). nia.
Qed.
Print Assumptions C42_views_follow_resizes.
(** A length-tracking Int16Array over a buffer of 6 bytes that shrinks to 3 and then to 1. *)
Definition buf6 : jsbuf := mkBuf [1; 2; 3; 4; 5; 6]%N 8 true false.
Example C42_case :
  (exists v, view_from_bytes vInt16 (BkBuffer buf6) 2 None false = Ok v /\
    view_memory (BkBuffer buf6) v = (true, [3; 4; 5; 6]%N) /\
    view_memory (BkBuffer (snd (resizes buf6 [3]))) v = (true, []) /\
    view_memory (BkBuffer (snd (resizes buf6 [3; 9; 5]))) v = (true, [3; 0]%N) /\
    view_memory (BkBuffer (snd (resizes buf6 [1]))) v = (false, [])) /\
  view_from_bytes vInt16 (BkBuffer buf6) 1 None false = Err EItemSize /\
  view_from_bytes vInt32 (BkBytes [1; 2; 3; 4; 5; 6]%N) 0 None false = Err EBounds.
Proof. split; [eexists; repeat split; vm_compute; reflexivity|]. split; vm_compute; reflexivity. Qed.

(** is_length_tracking: a view created without a length, over memory whose size can change. *)
Theorem C42_length_tracking : forall k t off len ro v d, bk_data k = Some d -> view_from_bytes t k off len ro = Ok v ->
  (view_tracking k v = true <-> len = None /\ size_changes k).
Proof.
  intros k t off len ro v d D V. destruct (from_bytes_ok _ _ _ _ _ _ _ D V) as [_ [_ [_ [_ L]]]]. rewrite size_changes_iff. unfold view_tracking. rewrite L.
  destruct len; split; try tauto; [discriminate|intros [? _]; discriminate].
Qed.
Print Assumptions C42_length_tracking.

(** C43. A successful set writes exactly the value's bytes at its place and a get returns the value; with
    the other endianness a get sees them reversed. Failing accesses outside the view change nothing. *)
Theorem C43_set_then_get : forall narrow widen k v f off x little,
  dv_format f = true -> view_ok v -> vw_readonly v = false -> ~ read_only k ->
  (forall j, k = BkBuffer j -> zlen (jb_data j) <= jb_max j) ->
  representable narrow widen f x -> 0 <= off -> off + Z.of_nat (dv_width f) <= Z.of_nat (length (snd (view_memory k v))) ->
  exists k' bs,
    dv_set narrow k v f off x little = (Ok tt, k') /\ length bs = dv_width f /\
    patched (data_of k) (Z.to_nat (vw_offset v * Z.of_N (itemsize (vw_tag v)) + off)) bs (data_of k') /\
    dv_get widen k' v f off little = Ok x /\
    dv_get widen k' v (DUnsigned (dv_width f)) off little = Ok (DVInt (Z.of_N (of_le (if little then bs else rev bs)))) /\
    dv_get widen k' v (DUnsigned (dv_width f)) off (negb little) = Ok (DVInt (Z.of_N (of_le (if little then rev bs else bs)))).
Proof.
  intros narrow widen k v f off x little FM VO RO BO BK R O L.
  assert (bk_readonly k = false) as BO' by (rewrite read_only_iff in BO; destruct (bk_readonly k); congruence). clear BO. rename BO' into BO.
  destruct (dv_bits_value narrow widen f x FM R) as [n [DB [DV NB]]]. pose proof (dv_format_width narrow widen f FM) as W.
  destruct (view_memory k v) as [inrange mem] eqn:M. cbn [snd] in L.
  set (bs := dv_order little (le_bytes (dv_width f) n)).
  assert (length bs = dv_width f) as LB by (unfold bs; rewrite dv_order_length, le_bytes_length; reflexivity).
  pose proof (view_memory_write k v mem inrange (Z.to_nat off) bs VO) as WR.
  destruct WR as [MW PW]; [destruct k; auto|exact M|lia|lia|]. unfold isize in MW, PW.
  destruct VO as [V1 V2]. pose proof (isize_pos (vw_tag v)) as SP. unfold isize in SP.
  assert (Z.to_nat (vw_offset v * Z.of_N (itemsize (vw_tag v))) + Z.to_nat off =
          Z.to_nat (vw_offset v * Z.of_N (itemsize (vw_tag v)) + off))%nat as PE by (rewrite Z2Nat.inj_add; nia).
  rewrite PE in MW, PW. eexists. exists bs. split.
  { unfold dv_set. rewrite M. cbn [snd]. unfold zlen.
    assert (((off <? 0) || (Z.of_nat (length mem) <? off + Z.of_nat (dv_width f))) = false) as -> by lia.
    rewrite RO, BO. cbn [orb]. rewrite DB. reflexivity. }
  split; [exact LB|]. fold bs. unfold isize. split; [exact PW|]. unfold dv_get. rewrite MW. cbn [snd]. unfold zlen.
  rewrite splice_length by lia. cbn [dv_width].
  assert (((off <? 0) || (Z.of_nat (length mem) <? off + Z.of_nat (dv_width f))) = false) as -> by lia.
  assert (slice (splice mem (Z.to_nat off) bs) (Z.to_nat off) (dv_width f) = bs) as ->
    by (rewrite <- LB; apply slice_splice; lia).
  split; [|split].
  - unfold bs. rewrite dv_order_involutive, of_le_le_bytes by exact NB. rewrite DV. reflexivity.
  - reflexivity.
  - cbn [dv_value]. destruct little; reflexivity.
Qed.
Print Assumptions C43_set_then_get.
Theorem C43_out_of_bounds : forall narrow widen k v f off x little,
  (off < 0 \/ Z.of_nat (length (snd (view_memory k v))) < off + Z.of_nat (dv_width f)) ->
  dv_set narrow k v f off x little = (Err EBounds, k) /\ dv_get widen k v f off little = Err EBounds.
Proof.
  intros narrow widen k v f off x little B. unfold dv_set, dv_get, zlen.
  assert (((off <? 0) || (Z.of_nat (length (snd (view_memory k v))) <? off + Z.of_nat (dv_width f))) = true) as -> by lia.
  auto.
Qed.
Print Assumptions C43_out_of_bounds.
(** Nothing is written through a readonly view or to readonly memory. *)
Theorem C43_read_only_raises : forall narrow k v f off x little, vw_readonly v = true \/ read_only k ->
  exists e, dv_set narrow k v f off x little = (Err e, k) /\ (e = EBounds \/ e = EType).
Proof.
  intros narrow k v f off x little H. unfold dv_set. destruct (_ || _); [eauto|].
  assert (vw_readonly v || bk_readonly k = true) as ->; [|eauto]. destruct H as [-> |H]; [reflexivity|]. rewrite (proj1 (read_only_iff k) H). apply orb_true_r.
Qed.
Print Assumptions C43_read_only_raises.
(** A value the format cannot hold is rejected. *)
Theorem C43_unrepresentable_int_raises : forall narrow widen k v f off z little,
  (forall w, f <> DFloat w) -> ~ representable narrow widen f (DVInt z) ->
  exists e k', dv_set narrow k v f off (DVInt z) little = (Err e, k').
Proof.
  intros narrow widen k v f off z little NF R. unfold dv_set.
  destruct ((off <? 0) || (zlen (snd (view_memory k v)) <? off + Z.of_nat (dv_width f))); [eauto|].
  destruct (vw_readonly v || bk_readonly k); [eauto|].
  destruct f as [w|w|w]; cbn [dv_bits representable] in *; [| |destruct (NF w eq_refl)].
  - destruct ((- 2 ^ (8 * Z.of_nat w - 1) <=? z) && (z <? 2 ^ (8 * Z.of_nat w - 1))) eqn:C; [exfalso; lia|eauto].
  - destruct ((0 <=? z) && (z <? 2 ^ (8 * Z.of_nat w))) eqn:C; [exfalso; lia|eauto].
Qed.
Print Assumptions C43_unrepresentable_int_raises.
Example C43_case :
  dv_format (DSigned 2) = true /\ representable (fun _ _ => None) (fun _ b => b) (DSigned 2) (DVInt (-2)) /\
  dv_set (fun _ _ => None) (BkByteArray [1; 2; 3; 4]%N) (mkView vDataView 1 None false) (DSigned 2) 0 (DVInt (-2)) false =
    (Ok tt, BkByteArray [1; 255; 254; 4]%N).
Proof. split; [reflexivity|]. split; [cbn; lia|vm_compute; reflexivity]. Qed.

(** C44 *)
Theorem C44_resizable_history : forall data mx ns b tr b',
  jsbuf_new data (Some mx) false false = Ok b -> resizes b ns = (tr, b') ->
  map fst tr = ns /\ resize_history mx data tr (jsbuf_view b') /\ Z.of_nat (length (jsbuf_view b')) <= mx /\ jb_max b' = mx.
Proof.
  intros data mx ns b tr b' N H. unfold jsbuf_new in N. cbn [orb andb] in N.
  destruct (mx <? zlen data) eqn:L; [discriminate|]. injection N as <-.
  destruct (resizes_history ns (mkBuf data mx true false) tr b' eq_refl) as [T [RH [M [_ L2]]]]; [cbn; lia|exact H|].
  cbn [jb_data jb_max] in *. rewrite jsbuf_view_all by lia. auto.
Qed.
Print Assumptions C44_resizable_history.
(** A buffer made for a number of bytes has that many zeros. *)
Theorem C44_allocated : forall n mx resizable ro,
  match jsbuf_alloc n mx resizable ro with
  | Ok b => jsbuf_view b = repeat 0%N (Z.to_nat n) /\ (0 <= n \/ ro = true) /\ jb_readonly b = ro /\
      (jb_resizable b = true <-> resizable = true \/ mx <> None) /\ jb_max b = match mx with Some m => m | None => Z.max 0 n end
  | Err e => (resizable = true \/ mx <> None) /\ ro = true \/ n < 0 /\ ro = false \/ exists m, mx = Some m /\ m < Z.max 0 n
  end.
Proof.
  intros n mx resizable ro. unfold jsbuf_alloc. set (r := resizable || match mx with Some _ => true | None => false end).
  assert (RZ : r = true <-> resizable = true \/ mx <> None).
  { unfold r. destruct resizable, mx; cbn [orb]; split; auto; try discriminate; [right; discriminate|intros [H|H]; congruence]. }
  destruct (r && ro) eqn:A; [apply andb_prop in A as [A ->]; left; tauto|]. destruct ((n <? 0) && negb ro) eqn:B; [right; left; destruct ro; cbn [negb] in B; lia|].
  unfold jsbuf_new. fold r. rewrite A. assert (ZL : zlen (zeros (Z.to_nat n)) = Z.max 0 n) by (unfold zlen, zeros; rewrite repeat_length; lia).
  destruct mx as [m|]; [destruct (m <? zlen (zeros (Z.to_nat n))) eqn:L; [right; right; exists m; split; [reflexivity|lia]|]|rewrite Z.ltb_irrefl];
    (split; [rewrite jsbuf_view_all; [reflexivity|cbn [jb_data jb_max]; lia]|]; split; [destruct ro; [auto|left; cbn [negb] in B; lia]|]; split; [reflexivity|]; split; [exact RZ|]; cbn [jb_max]; auto).
Qed.
Print Assumptions C44_allocated.
(** Creation fails exactly when the data exceed the maximum, and fixed buffers cannot be resized. *)
Theorem C44_created_within_maximum : forall data mx,
  match jsbuf_new data (Some mx) false false with
  | Ok b => Z.of_nat (length data) <= mx /\ jsbuf_view b = data /\ jb_resizable b = true
  | Err e => e = EByteLength /\ mx < Z.of_nat (length data)
  end.
Proof.
  intros data mx. unfold jsbuf_new. cbn [orb andb]. destruct (mx <? zlen data) eqn:L; unfold zlen in *.
  - split; [reflexivity|lia].
  - split; [lia|]. split; [|reflexivity]. apply jsbuf_view_all. unfold zlen. cbn. lia.
Qed.
Print Assumptions C44_created_within_maximum.
Theorem C44_fixed_buffers_reject : forall data ro b n,
  jsbuf_new data None false ro = Ok b -> jsbuf_resize b n = Err EByteLength /\ jsbuf_view b = data.
Proof.
  intros data ro b n N. unfold jsbuf_new in N. cbn [orb andb] in N. rewrite Z.ltb_irrefl in N. injection N as <-.
  split; [reflexivity|]. apply jsbuf_view_all. cbn. lia.
Qed.
Print Assumptions C44_fixed_buffers_reject.
Example C44_case : exists b, jsbuf_new [7; 8; 9]%N (Some 5) false false = Ok b /\
  resizes b [2; 6; 5; -1] = ([(2, true); (6, false); (5, true); (-1, false)], mkBuf [7; 8; 0; 0; 0]%N 5 true false).
Proof. eexists. split; vm_compute; reflexivity. Qed.
