(** C62: typed arrays and DataViews in use are windows onto one memory. *)
From Coq Require Import List NArith ZArith Bool Lia ZifyBool ZifyNat ZifyN.
From Verif Require Import Base ModelTags ModelArray ModelBuffer SpecBuffer BufferFacts ModelTyped SpecTyped TypedFacts.
Import ListNotations.
Open Scope Z_scope.

(** the bytes of the backing buffer *)
Definition memory (s : session) : bytes := data_of (ss_mem s).
Definition size_of (s : session) : Z := Z.of_nat (length (memory s)).
(** where item [j] of a view is, in bytes *)
Definition place (v : view) (j : Z) : Z := vw_offset v * Z.of_N (itemsize (vw_tag v)) + j * Z.of_N (itemsize (vw_tag v)).
(** Can the block change the memory? [k] is the backing buffer. *)
Definition writable (k : backing) (v : view) (ro : bool) : Prop :=
  ro = false /\ vw_readonly v = false /\ match k with BkByteArray _ => True | BkBuffer b => jb_readonly b = false | _ => False end.
Lemma writable_locked k v ro : writable k v ro <-> (ro || vw_readonly v || locked k)%bool = false.
Proof.
  unfold writable, locked. destruct k; cbn [bk_readonly]; destruct ro, (vw_readonly v); cbn [orb]; intuition (try discriminate; try congruence).
Qed.
(** Which typed arrays read and write the buffer itself: all but 16-bit floats where memoryview has no such format. *)
Definition direct (native_half : bool) (v : view) : Prop := vw_tag v <> vDataView /\ (vw_tag v = vFloat16 -> native_half = true).
Definition copied (native_half : bool) (v : view) : Prop := vw_tag v = vFloat16 /\ native_half = false.

Section Typed.
Variable narrow : nat -> N -> option N.
Variable cast32 : N -> N.
Variable widen : nat -> N -> N.
Variable float_of : Z -> option N.
Variable native_half : bool.
Notation trun := (trun narrow cast32 widen float_of native_half).
Notation truns := (truns narrow cast32 widen float_of native_half).
Notation session_from := (session_from narrow cast32 widen float_of native_half).

(** len() of a block: the items of the view that are in the buffer, all of them inside it. *)
Theorem C62_window : forall k tr s h v ro, session_from k tr s -> open_on tr h v ro ->
  exists n, trun s (TLen h) = (TNum n, s) /\
    has_items (size_of s) (place v 0) (Z.of_N (itemsize (vw_tag v))) (vw_length v) n /\
    forall j, 0 <= j < n -> 0 <= place v j /\ place v (j + 1) <= size_of s.
Proof.
  intros k tr s h v ro SF OO. destruct (opened _ _ _ _ _ _ _ _ _ _ _ SF OO) as [V [hd [k1 [E [SH [K W]]]]]].
  exists (items_in (zlen (data_of (ss_mem s))) v). split; [|split].
  - cbn [ModelTyped.trun]. rewrite E. destruct hd; cbn [hview] in W; try discriminate; injection W as -> -> ->; reflexivity.
  - pose proof (items_has (zlen (data_of (ss_mem s))) v V (zlen_nonneg _)) as I. unfold place. rewrite Z.mul_0_l, Z.add_0_r. exact I.
  - intros j J. pose proof (items_inside (zlen (data_of (ss_mem s))) v V (zlen_nonneg _)) as [I0 [I|I]]; [lia|].
    unfold place, size_of, memory, vstart, isize, zlen in *. destruct V. nia.
Qed.

(** While a block is open, the buffer keeps its size and the block its length, whatever else is done; resizes to another
    size raise BufferError. *)
Theorem C62_fixed_while_open : forall k tr s h v ro ops tr' s',
  session_from k tr s -> open_on tr h v ro -> Forall top_ok ops -> truns s ops = (tr', s') -> (forall x r, ~ In (TClose h x, r) tr') ->
  size_of s' = size_of s /\ fst (trun s' (TLen h)) = fst (trun s (TLen h)) /\
  forall n r, In (TResize n, r) tr' -> r = TUnit -> n = size_of s.
Proof.
  intros k tr s h v ro ops tr' s' SF OO F T NC.
  destruct (session_from_ok _ _ _ _ _ _ _ _ SF) as [OK L].
  destruct (opened _ _ _ _ _ _ _ _ _ _ _ SF OO) as [V [hd [k1 [E [SH [K W]]]]]].
  assert (is_open hd = true) as IO by (destruct hd; auto; discriminate).
  destruct (truns_ok _ _ _ _ _ ops s tr' s' OK F T) as [OK' [L' S']]. destruct (S' h hd E IO NC) as [Z' [hd' [E' H']]].
  split; [exact Z'|]. split.
  - cbn [ModelTyped.trun]. rewrite E, E'. destruct hd, hd'; cbn in H'; try discriminate; try (injection H' as -> -> ->; reflexivity).
    destruct H' as [-> [Q ->]]. cbn [fst]. rewrite Q. reflexivity.
  - intros n r IN ->. apply in_split in IN as [t1 [t2 ->]].
    destruct (truns_split _ _ _ _ _ ops _ _ _ _ _ _ _ T eq_refl) as [ops1 [s1 [s2 [ops2 [-> [T1 [R T2]]]]]]].
    apply Forall_app in F as [F1 F2]. destruct (truns_ok _ _ _ _ _ ops1 s t1 s1 OK F1 T1) as [OK1 [L1 S1]].
    destruct (S1 h hd E IO) as [Z1 [hd1 [E1 H1]]]. { intros x r IN. apply (NC x r). apply in_or_app. auto. }
    cbn [ModelTyped.trun] in R. unfold size_of, memory. fold (zlen (data_of (ss_mem s))). rewrite <- Z1. destruct (ss_mem s1) as [| |b|] eqn:KM; try discriminate.
    destruct (jsbuf_resize b n) as [b'|e] eqn:RS; [|discriminate].
    assert (existsb is_open (ss_handles s1) = true) as EX.
    { apply existsb_exists. exists hd1. split; [eapply nth_error_In; eauto|]. destruct hd, hd1; cbn in H1; try discriminate; auto. }
    rewrite EX, andb_true_r in R. destruct (negb _) eqn:NE in R; [discriminate|]. 
    destruct OK1 as [[_ GM] _]. rewrite KM in GM. unfold data_of. cbn [bk_data]. rewrite jsbuf_view_all by auto.
    assert (jb_resizable b = true) as RB by (unfold jsbuf_resize in RS; destruct (jb_resizable b); auto; discriminate).
    destruct (resize_spec b n b' RB RS) as [_ [[RL _] _]]. unfold zlen in *. lia.
Qed.
(** A resize while a block is open changes nothing; without open blocks it is the buffer's own resize. *)
Theorem C62_resize : forall k tr s n, session_from k tr s ->
  match ss_mem s with
  | BkBuffer b =>
      (forall h v ro, open_on tr h v ro -> memory (snd (trun s (TResize n))) = memory s) /\
      ((exists h v ro, open_on tr h v ro) -> n <> size_of s -> jb_resizable b = true -> 0 <= n <= jb_max b -> trun s (TResize n) = (TBufferError, s)) /\
      (existsb is_open (ss_handles s) = false ->
        match jsbuf_resize b n with
        | Ok b' => trun s (TResize n) = (TUnit, mkSession (BkBuffer b') (ss_handles s))
        | Err e => trun s (TResize n) = (TExn e, s)
        end)
  | _ => True
  end.
Proof.
  intros k tr s n SF. destruct (ss_mem s) as [| |b|] eqn:KM; auto.
  destruct (session_from_ok _ _ _ _ _ _ _ _ SF) as [[[GB GM] HO] L]. rewrite KM in GM.
  assert (memory s = jb_data b) as MB by (unfold memory, data_of; rewrite KM; apply jsbuf_view_all; auto).
  assert (forall h v ro, open_on tr h v ro -> existsb is_open (ss_handles s) = true) as EX.
  { intros h v ro OO. destruct (opened _ _ _ _ _ _ _ _ _ _ _ SF OO) as [V [hd [k1 [E [SH [K W]]]]]].
    apply existsb_exists. exists hd. split; [eapply nth_error_In; eauto|]. destruct hd; auto; discriminate. }
  cbn [ModelTyped.trun]. rewrite KM. split; [|split].
  - intros h v ro OO. specialize (EX h v ro OO). rewrite EX. destruct (jsbuf_resize b n) as [b'|e] eqn:RS; [|reflexivity].
    rewrite andb_true_r. destruct (negb _) eqn:NE; [reflexivity|]. cbn [snd]. rewrite MB. unfold memory, data_of. cbn [ss_mem bk_data].
    assert (jb_resizable b = true) as RB by (unfold jsbuf_resize in RS; destruct (jb_resizable b); auto; discriminate).
    destruct (resize_spec b n b' RB RS) as [RN [[RL _] [RM _]]]. rewrite jsbuf_view_all by (unfold zlen; lia).
    unfold zlen in NE. unfold jsbuf_resize in RS. rewrite RB in RS. cbn [negb] in RS. destruct (negb _) in RS; [discriminate|]. injection RS as <-.
    cbn [jb_data] in *. destruct (_ <? n) eqn:LT; [unfold zlen in LT; lia|]. apply firstn_all2. lia.
  - intros [h [v [ro OO]]] NE RB RN. rewrite (EX h v ro OO). destruct (jsbuf_resize b n) as [b'|e] eqn:RS.
    + rewrite andb_true_r. destruct (resize_spec b n b' RB RS) as [_ [[RL _] _]]. unfold size_of in NE. rewrite MB in NE. unfold zlen.
      destruct (Z.of_nat (length (jb_data b')) =? Z.of_nat (length (jb_data b))) eqn:Q; [lia|]. reflexivity.
    + destruct (resize_error b n e RB RS) as [_ Q]. lia.
  - intros ->. destruct (jsbuf_resize b n) as [b'|e]; [|reflexivity]. rewrite andb_false_r. reflexivity.
Qed.

(** Reading an item gives the number its bytes spell, and changes nothing. *)
Theorem C62_get : forall k tr s h v ro i n, session_from k tr s -> open_on tr h v ro -> direct native_half v -> trun s (TLen h) = (TNum n, s) ->
  (forall j, at_index n i j -> exists bs x f, trun s (TGet h i) = (TVal x, s) /\
     js_format (vw_tag v) = Some f /\ length bs = dv_width f /\ part_of bs (memory s) (place v j) /\ reads_as widen f bs x) /\
  ((forall j, ~ at_index n i j) -> trun s (TGet h i) = (TExn EIndex, s)).
Proof.
  intros k tr s h v ro i n SF OO [ND NH] LN. destruct (opened_typed _ _ _ _ _ _ _ _ _ _ _ SF OO ND NH) as [V E].
  destruct (session_from_ok _ _ _ _ _ _ _ _ SF) as [[[GB GM] HO] L]. pose proof (Forall_nth _ _ _ _ HO E) as HK.
  cbn [ModelTyped.trun] in LN |- *. rewrite E in LN |- *. injection LN as LN. rewrite LN in *. split.
  - intros j AT. rewrite (mv_index_at _ _ _ AT).
    destruct (item_range _ _ _ _ _ j HK eq_refl (proj1 AT)) as [R1 R2]. rewrite <- elem_width in R2 at 2.
    destruct (slice_at (data_of (ss_mem s)) _ _ R1 R2) as [SL SP]. unfold read_at. fold (data_of (ss_mem s)). cbn [dv_order].
    set (bs := slice _ _ _) in *. exists bs, (dv_value widen (elem_format (vw_tag v)) (of_le bs)), (elem_format (vw_tag v)).
    split; [reflexivity|]. split; [destruct (vw_tag v); try reflexivity; congruence|]. split; [auto|]. split; [exact SP|].
    apply reads_value; auto using elem_dv. apply bytes_ok_slice. exact GB.
  - intros NA. pose proof (mv_index_spec n i) as MI. destruct (mv_index n i) as [j|]; [exfalso; eapply NA; eauto|reflexivity].
Qed.
(** Assigning an item changes its bytes and nothing else, or raises and changes nothing. *)
Theorem C62_set : forall k tr s h v ro i x n,
  (forall w b p, narrow w b = Some p -> (p < 256 ^ N.of_nat w)%N) -> (forall b, (cast32 b < 2 ^ 32)%N) -> (forall z b, float_of z = Some b -> (b < 2 ^ 64)%N) ->
  session_from k tr s -> open_on tr h v ro -> direct native_half v -> value_ok x -> trun s (TLen h) = (TNum n, s) ->
  (~ writable k v ro -> trun s (TSet h i x) = (TExn EType, s)) /\
  (writable k v ro -> (forall j, ~ at_index n i j) -> trun s (TSet h i x) = (TExn EIndex, s)) /\
  (writable k v ro -> forall j, at_index n i j -> exists f, js_format (vw_tag v) = Some f /\
     ((exists e, trun s (TSet h i x) = (TExn e, s) /\ refuses narrow float_of f x e) \/
      (exists bs s', trun s (TSet h i x) = (TUnit, s') /\ length bs = dv_width f /\ stores narrow cast32 widen float_of f x bs /\
         patched (memory s) (Z.to_nat (place v j)) bs (memory s') /\ ss_handles s' = ss_handles s))).
Proof.
  intros k tr s h v ro i x n NF CF FF SF OO [ND NH] VX LN. destruct (opened_typed _ _ _ _ _ _ _ _ _ _ _ SF OO ND NH) as [V E].
  destruct (session_from_ok _ _ _ _ _ _ _ _ SF) as [[GD HO] L]. pose proof (Forall_nth _ _ _ _ HO E) as HK.
  rewrite writable_locked. cbn [ModelTyped.trun] in LN |- *. rewrite E in LN |- *. injection LN as LN. rewrite LN in *. split; [|split].
  - intros W. apply not_false_is_true in W. rewrite W. reflexivity.
  - intros -> NA. pose proof (mv_index_spec n i) as MI. destruct (mv_index n i) as [j|]; [exfalso; eapply NA; eauto|reflexivity].
  - intros W j AT. rewrite W in *. rewrite (mv_index_at _ _ _ AT). exists (elem_format (vw_tag v)).
    split; [destruct (vw_tag v); try reflexivity; congruence|].
    pose proof (item_bits_spec narrow cast32 widen float_of NF CF FF (elem_format (vw_tag v)) x (elem_dv _) VX) as IB.
    destruct (item_bits narrow cast32 float_of (elem_format (vw_tag v)) x) as [b|e]; [right|left; eauto].
    destruct (item_range _ _ _ _ _ j HK eq_refl (proj1 AT)) as [R1 R2].
    assert (locked (ss_mem s) = false) as LK by (rewrite L; destruct (locked k); auto; rewrite orb_true_r in W; discriminate).
    pose proof (elem_width (vw_tag v)) as EW.
    destruct (write_good (ss_mem s) (Z.to_nat (vstart v + j * isize (vw_tag v))) (le_bytes (dv_width (elem_format (vw_tag v))) b) GD LK (le_bytes_ok _ _)) as [G1 [D1 [L1 Z1]]].
    { rewrite le_bytes_length. unfold zlen in R2. lia. }
    eexists _, _. split; [reflexivity|]. split; [apply le_bytes_length|]. split; [exact IB|]. split; [|reflexivity].
    unfold memory at 2. cbn [ss_mem]. rewrite D1. apply splice_patched. rewrite le_bytes_length. unfold memory, place, isize, vstart, zlen in *. lia.
Qed.
(** A DataView reads the number its bytes spell, in either byte order. *)
Theorem C62_data_get : forall k tr s h v ro f off little n, session_from k tr s -> open_on tr h v ro -> vw_tag v = vDataView ->
  dv_format f = true -> trun s (TLen h) = (TNum n, s) ->
  (0 <= off /\ off + Z.of_nat (dv_width f) <= n -> exists bs x, trun s (TGetData h f off little) = (TVal x, s) /\
     length bs = dv_width f /\ part_of bs (memory s) (place v off) /\ reads_as widen f (if little then bs else rev bs) x) /\
  (~ (0 <= off /\ off + Z.of_nat (dv_width f) <= n) -> trun s (TGetData h f off little) = (TExn EBounds, s)).
Proof.
  intros k tr s h v ro f off little n SF OO TG DF LN. destruct (opened_data _ _ _ _ _ _ _ _ _ _ _ SF OO TG) as [V E].
  destruct (session_from_ok _ _ _ _ _ _ _ _ SF) as [[[GB GM] HO] L]. pose proof (Forall_nth _ _ _ _ HO E) as HK.
  cbn [ModelTyped.trun] in LN |- *. rewrite E in LN |- *. injection LN as LN. rewrite LN in *. split.
  - intros B. destruct ((off <? 0) || (n <? off + Z.of_nat (dv_width f)))%bool eqn:C; [lia|].
    assert (0 < dv_width f)%nat as W by (eapply dv_format_width; eauto).
    destruct (data_range _ _ _ _ off (Z.of_nat (dv_width f)) HK ltac:(lia) ltac:(lia) ltac:(lia)) as [R1 R2].
    destruct (slice_at (data_of (ss_mem s)) _ _ R1 R2) as [SL SP]. unfold read_at. fold (data_of (ss_mem s)).
    set (bs := slice _ _ _) in *. exists bs, (dv_value widen f (of_le (dv_order little bs))). split; [reflexivity|].
    split; [auto|]. split.
    + replace (place v off) with (vstart v + off); [exact SP|]. unfold place, vstart, isize. rewrite TG. cbn [itemsize]. lia.
    + unfold dv_order. apply reads_value; auto; destruct little; rewrite ?rev_length; auto; try apply Forall_rev; apply bytes_ok_slice; exact GB.
  - intros B. destruct ((off <? 0) || (n <? off + Z.of_nat (dv_width f)))%bool eqn:C; [reflexivity|lia].
Qed.
(** Writing through a DataView changes the bytes of the number and nothing else. *)
Theorem C62_data_set : forall k tr s h v ro f off x little n, session_from k tr s -> open_on tr h v ro -> vw_tag v = vDataView ->
  dv_format f = true -> trun s (TLen h) = (TNum n, s) ->
  (~ (0 <= off /\ off + Z.of_nat (dv_width f) <= n) -> trun s (TSetData h f off x little) = (TExn EBounds, s)) /\
  (0 <= off /\ off + Z.of_nat (dv_width f) <= n ->
    (~ writable k v ro -> trun s (TSetData h f off x little) = (TExn EType, s)) /\
    (writable k v ro -> exists bs s', snd (trun s (TSetData h f off x little)) = s' /\ length bs = dv_width f /\
       patched (memory s) (Z.to_nat (place v off)) bs (memory s') /\ ss_handles s' = ss_handles s /\
       (representable narrow widen f x -> fst (trun s (TSetData h f off x little)) = TUnit /\ trun s' (TGetData h f off little) = (TVal x, s')) /\
       (fst (trun s (TSetData h f off x little)) <> TUnit -> bs = zeros (dv_width f)))).
Proof.
  intros k tr s h v ro f off x little n SF OO TG DF LN. destruct (opened_data _ _ _ _ _ _ _ _ _ _ _ SF OO TG) as [V E].
  destruct (session_from_ok _ _ _ _ _ _ _ _ SF) as [[GD HO] L]. pose proof (Forall_nth _ _ _ _ HO E) as HK.
  rewrite writable_locked. cbn [ModelTyped.trun] in LN |- *. rewrite E in LN |- *. injection LN as LN. rewrite LN in *. split.
  - intros B. destruct ((off <? 0) || (n <? off + Z.of_nat (dv_width f)))%bool eqn:C; [reflexivity|lia].
  - intros B. destruct ((off <? 0) || (n <? off + Z.of_nat (dv_width f)))%bool eqn:C; [lia|]. split.
    + intros W. apply not_false_is_true in W. rewrite W. reflexivity.
    + intros W. rewrite W in *. assert (0 < dv_width f)%nat as PW by (eapply dv_format_width; eauto).
      destruct (data_range _ _ _ _ off (Z.of_nat (dv_width f)) HK ltac:(lia) ltac:(lia) ltac:(lia)) as [R1 R2].
      assert (locked (ss_mem s) = false) as LK by (rewrite L; destruct (locked k); auto; rewrite orb_true_r in W; discriminate).
      assert (place v off = vstart v + off) as PL by (unfold place, vstart, isize; rewrite TG; cbn [itemsize]; lia).
      rewrite PL.
      assert (forall bs, bytes_ok bs -> length bs = dv_width f -> data_of (bk_write (ss_mem s) (Z.to_nat (vstart v + off)) bs) = splice (memory s) (Z.to_nat (vstart v + off)) bs /\
          patched (memory s) (Z.to_nat (vstart v + off)) bs (data_of (bk_write (ss_mem s) (Z.to_nat (vstart v + off)) bs))) as WR.
      { intros bs B1 B2. destruct (write_good (ss_mem s) (Z.to_nat (vstart v + off)) bs GD LK B1) as [G1 [D1 [L1 Z1]]]; [unfold zlen in R2; lia|].
        rewrite D1. split; [reflexivity|]. apply splice_patched. unfold memory, zlen in *. lia. }
      destruct (dv_bits narrow f x) as [b|e] eqn:DB.
      * set (bs := dv_order little (le_bytes (dv_width f) b)).
        assert (bytes_ok bs) as B1 by (apply bytes_ok_order, le_bytes_ok).
        assert (length bs = dv_width f) as B2 by (unfold bs; rewrite dv_order_length; apply le_bytes_length).
        destruct (WR bs B1 B2) as [D1 P1].
        eexists bs, _. split; [reflexivity|]. split; [auto|]. split; [exact P1|]. split; [reflexivity|]. split; [|cbn [fst]; congruence].
        intros RP. split; [reflexivity|]. cbn [ss_mem ss_handles snd]. rewrite E, C. unfold read_at. fold (data_of (bk_write (ss_mem s) (Z.to_nat (vstart v + off)) bs)). 
        rewrite D1. replace (slice _ _ (dv_width f)) with bs by (rewrite <- B2; symmetry; apply slice_splice; unfold memory, zlen in *; lia). unfold bs. rewrite dv_order_involutive.
        destruct (dv_bits_value narrow widen f x DF RP) as [n0 [Q1 [Q2 Q3]]]. rewrite DB in Q1. injection Q1 as ->.
        rewrite of_le_le_bytes by exact Q3. rewrite Q2. reflexivity.
      * destruct (WR (zeros (dv_width f)) (bytes_ok_zeros _) (zeros_length _)) as [D1 P1].
        eexists (zeros (dv_width f)), _. split; [reflexivity|]. split; [apply zeros_length|]. split; [exact P1|]. split; [reflexivity|]. split; [|auto].
        intros RP. destruct (dv_bits_value narrow widen f x DF RP) as [n0 [Q1 _]]. congruence.
Qed.
(** Opening a block, asking for its length, reading, and ending the block of a view that is not copied change no byte. *)
Theorem C62_readers : forall k tr s o, session_from k tr s ->
  (match o with
   | TSet _ _ _ | TSetData _ _ _ _ _ | TResize _ => False
   | TClose h _ => exists v ro, open_on tr h v ro /\ ~ copied native_half v
   | _ => True
   end) -> memory (snd (trun s o)) = memory s.
Proof.
  intros k tr s o SF O. destruct o as [v ro|h raised|h|h i|h i x|h f off little|h f off x little|n]; try contradiction; cbn [ModelTyped.trun].
  - reflexivity.
  - destruct O as [v [ro [OO NC]]]. destruct (nth_error (ss_handles s) h) as [[v' n r|v' n r|v' c r|]|] eqn:E; try reflexivity.
    destruct (opened _ _ _ _ _ _ _ _ _ _ _ SF OO) as [V [hd [k1 [E' [SH [K W]]]]]]. rewrite E in E'. injection E' as <-.
    unfold ModelTyped.open_view in SH. cbn zeta in SH. unfold copied in NC. exfalso.
    destruct (vw_tag v) eqn:TG, native_half; cbn [same_handle] in SH; try discriminate; tauto.
  - destruct (nth_error (ss_handles s) h) as [[]|]; reflexivity.
  - destruct (nth_error (ss_handles s) h) as [[]|]; try reflexivity; destruct (mv_index _ _); reflexivity.
  - destruct (nth_error (ss_handles s) h) as [[]|]; try reflexivity; destruct (_ || _)%bool; reflexivity.
Qed.

(** Typed arrays of one format that read the same bytes agree, whatever else differs, and so does a DataView read in
    little-endian order. *)
Theorem C62_views_agree : forall k tr s h v ro h' v' ro' i i' j j' n n',
  session_from k tr s -> open_on tr h v ro -> open_on tr h' v' ro' -> direct native_half v -> direct native_half v' ->
  trun s (TLen h) = (TNum n, s) -> trun s (TLen h') = (TNum n', s) -> at_index n i j -> at_index n' i' j' ->
  js_format (vw_tag v) = js_format (vw_tag v') -> place v j = place v' j' -> trun s (TGet h i) = trun s (TGet h' i').
Proof.
  intros k tr s h v ro h' v' ro' i i' j j' n n' SF OO OO' [ND NH] [ND' NH'] LN LN' AT AT' JF PL.
  destruct (opened_typed _ _ _ _ _ _ _ _ _ _ _ SF OO ND NH) as [V E]. destruct (opened_typed _ _ _ _ _ _ _ _ _ _ _ SF OO' ND' NH') as [V' E'].
  cbn [ModelTyped.trun] in *. rewrite E in LN |- *. rewrite E' in LN' |- *. injection LN as LN. injection LN' as LN'. rewrite LN, LN'.
  rewrite (mv_index_at _ _ _ AT), (mv_index_at _ _ _ AT'). unfold place in PL. unfold vstart, isize. rewrite PL.
  replace (elem_format (vw_tag v)) with (elem_format (vw_tag v')); [reflexivity|].
  destruct (vw_tag v), (vw_tag v'); cbn in JF |- *; try congruence.
Qed.
Theorem C62_data_view_agrees : forall k tr s h v ro h' v' ro' i j off n n' f,
  session_from k tr s -> open_on tr h v ro -> open_on tr h' v' ro' -> direct native_half v -> vw_tag v' = vDataView ->
  trun s (TLen h) = (TNum n, s) -> trun s (TLen h') = (TNum n', s) -> at_index n i j -> 0 <= off /\ off + Z.of_nat (dv_width f) <= n' ->
  js_format (vw_tag v) = Some f -> place v j = place v' off -> trun s (TGet h i) = trun s (TGetData h' f off true).
Proof.
  intros k tr s h v ro h' v' ro' i j off n n' f SF OO OO' [ND NH] TG LN LN' AT OF JF PL.
  destruct (opened_typed _ _ _ _ _ _ _ _ _ _ _ SF OO ND NH) as [V E]. destruct (opened_data _ _ _ _ _ _ _ _ _ _ _ SF OO' TG) as [V' E'].
  cbn [ModelTyped.trun] in *. rewrite E in LN |- *. rewrite E' in LN' |- *. injection LN as LN. injection LN' as LN'. rewrite LN, LN'.
  rewrite (mv_index_at _ _ _ AT). destruct ((off <? 0) || (n' <? off + Z.of_nat (dv_width f)))%bool eqn:C; [lia|].
  assert (elem_format (vw_tag v) = f) as -> by (destruct (vw_tag v); cbn in JF |- *; congruence).
  unfold place in PL. unfold vstart, isize. rewrite PL, TG. cbn [itemsize]. replace (off * Z.of_N 1) with off by lia. reflexivity.
Qed.
(** What a block reads depends on the bytes of the item only: a change elsewhere does not show. *)
Theorem C62_local : forall k tr s k' tr' s' h v ro h' ro' i j n n',
  session_from k tr s -> open_on tr h v ro -> session_from k' tr' s' -> open_on tr' h' v ro' -> direct native_half v ->
  trun s (TLen h) = (TNum n, s) -> trun s' (TLen h') = (TNum n', s') -> at_index n i j -> at_index n' i j ->
  (forall q, place v j <= q < place v (j + 1) -> nth_error (memory s') (Z.to_nat q) = nth_error (memory s) (Z.to_nat q)) ->
  fst (trun s' (TGet h' i)) = fst (trun s (TGet h i)).
Proof.
  intros k tr s k' tr' s' h v ro h' ro' i j n n' SF OO SF' OO' DR LN LN' AT AT' SAME.
  destruct (C62_get k tr s h v ro i n SF OO DR LN) as [G _]. destruct (C62_get k' tr' s' h' v ro' i n' SF' OO' DR LN') as [G' _].
  destruct DR as [ND NH].
  destruct (opened_typed _ _ _ _ _ _ _ _ _ _ _ SF OO ND NH) as [V E]. destruct (opened_typed _ _ _ _ _ _ _ _ _ _ _ SF' OO' ND NH) as [_ E'].
  destruct (session_from_ok _ _ _ _ _ _ _ _ SF) as [[GD HO] L]. pose proof (Forall_nth _ _ _ _ HO E) as HK.
  destruct (session_from_ok _ _ _ _ _ _ _ _ SF') as [[GD' HO'] L']. pose proof (Forall_nth _ _ _ _ HO' E') as HK'.
  cbn [ModelTyped.trun] in *. rewrite E in LN |- *. rewrite E' in LN' |- *. injection LN as LN. injection LN' as LN'. rewrite LN in *. rewrite LN' in *.
  rewrite (mv_index_at _ _ _ AT), (mv_index_at _ _ _ AT'). cbn [fst]. unfold read_at. fold (data_of (ss_mem s)). fold (data_of (ss_mem s')).
  destruct (item_range _ _ _ _ _ j HK eq_refl (proj1 AT)) as [R1 R2]. destruct (item_range _ _ _ _ _ j HK' eq_refl (proj1 AT')) as [_ R2'].
  do 4 f_equal. pose proof (elem_width (vw_tag v)) as EW.
  assert (forall (d d' : bytes) a w, (a + w <= length d)%nat -> (a + w <= length d')%nat -> (forall q, (a <= q < a + w)%nat -> nth_error d' q = nth_error d q) -> slice d' a w = slice d a w) as SL.
  { clear. intros d d' a w L L' Q. revert a L L' Q. induction w as [|w IH]; intros a L L' Q; [reflexivity|].
    assert (forall (d : bytes) a w, (a < length d)%nat -> slice d a (S w) = nth a d 0%N :: slice d (S a) w) as ST.
    { clear. intros d a. revert d. induction a as [|a IH]; intros [|x d] w L; cbn in L; try lia; [reflexivity|]. unfold slice in *. cbn [skipn nth]. apply IH. lia. }
    rewrite !ST by lia. f_equal; [|apply IH; try lia; intros; apply Q; lia].
    specialize (Q a ltac:(lia)). rewrite !(nth_error_nth' _ 0%N) in Q by lia. congruence. }
  apply SL; unfold memory, zlen in *; try lia.
  intros q Q. specialize (SAME (Z.of_nat q)). rewrite Nat2Z.id in SAME. apply SAME.
  unfold place, vstart, isize in *. lia.
Qed.

(** Where memoryview has no 16-bit floats, a block works on a copy: it starts as the items of the buffer ... *)
Theorem C62_half_opened : forall k tr s v ro h s1 n i j, session_from k tr s -> view_ok v -> copied native_half v ->
  trun s (TOpen v ro) = (THandle h, s1) -> trun s1 (TLen h) = (TNum n, s1) -> at_index n i j ->
  exists bs, length bs = 2%nat /\ part_of bs (memory s) (place v j) /\
    trun s1 (TGet h i) = (TVal (DVFloat (widen 4 (cast32 (widen 2 (Z.to_N (number_of bs)))))), s1).
Proof.
  intros k tr s v ro h s1 n i j SF V [TG NH] OP LN AT. cbn [ModelTyped.trun] in OP. injection OP as <- <-.
  unfold ModelTyped.open_view in *. rewrite TG, NH in *. cbn [ModelTyped.trun ss_handles ss_mem] in *.
  rewrite nth_error_app2 in * by lia. rewrite Nat.sub_diag in *. cbn [nth_error] in *. injection LN as LN. rewrite LN in *.
  rewrite (mv_index_at _ _ _ AT).
  destruct (session_from_ok _ _ _ _ _ _ _ _ SF) as [[GD HO] L].
  pose proof (items_memory (ss_mem s) v V) as IM. rewrite TG in IM. change (isize vFloat16) with 2 in IM.
  destruct (items_inside (zlen (data_of (ss_mem s))) v V (zlen_nonneg _)) as [I0 I].
  set (mem := snd (view_memory (ss_mem s) v)) in *.
  rewrite (halves_length cast32 widen mem (length mem) (le_n _)) in LN.
  assert (n = items_in (zlen (data_of (ss_mem s))) v) as NE.
  { rewrite <- LN, Nat2Z.inj_div. unfold zlen in IM. rewrite IM. apply Z.div_mul. lia. }
  destruct AT as [J _]. destruct I as [I|I]; [lia|]. rewrite TG in I. change (isize vFloat16) with 2 in I.
  assert (forall d fuel q, (length d <= fuel)%nat -> (2 * q + 2 <= length d)%nat -> nth q (halves cast32 widen fuel d) 0%N = cast32 (widen 2 (of_le (slice d (2 * q) 2)))) as HN.
  { clear. intros d fuel q. revert d fuel. induction q as [|q IH]; intros [|a [|b r]] [|fuel] F Q; cbn [length] in *; try lia.
    - reflexivity.
    - cbn [halves nth]. rewrite IH by lia. unfold slice. replace (2 * S q)%nat with (S (S (2 * q))) by lia. reflexivity. }
  rewrite HN by (unfold zlen in IM; lia).
  assert (0 <= vstart v) as VS by (unfold vstart, isize; destruct V; nia).
  assert (mem = slice (data_of (ss_mem s)) (Z.to_nat (vstart v)) (Z.to_nat (n * 2))) as MS.
  { pose proof (view_memory_spec (ss_mem s) v (fst (view_memory (ss_mem s) v)) mem V (surjective_pairing _)) as VM. cbn zeta in VM.
    destruct VM as [_ [V1 [V2 _]]]. destruct (fst (view_memory (ss_mem s) v)); [|exfalso; rewrite (V1 eq_refl) in IM; change (zlen []) with 0 in IM; lia].
    destruct (V2 eq_refl) as [pre [post [D LP]]]. rewrite D. unfold slice. change (vstart v) with (vw_offset v * isize (vw_tag v)). rewrite <- LP, Nat2Z.id.
    rewrite skipn_app_length, firstn_app. unfold zlen in IM. rewrite firstn_all2 by lia. replace (Z.to_nat (n * 2) - length mem)%nat with 0%nat by lia.
    cbn [firstn]. rewrite app_nil_r. reflexivity. }
  assert (slice mem (2 * Z.to_nat j) 2 = slice (memory s) (Z.to_nat (place v j)) 2) as SS.
  { assert (forall (d : bytes) a m b c, (b + c <= m)%nat -> slice (slice d a m) b c = slice d (a + b) c) as SSL.
    { clear. intros d a m b c L. unfold slice. rewrite skipn_firstn_comm, firstn_firstn, Nat.min_l by lia.
      f_equal. revert d. induction a as [|a IH]; intros d; [reflexivity|]. destruct d; cbn [skipn Nat.add]; [destruct b; reflexivity|apply IH]. }
    rewrite MS, SSL by lia. unfold memory, place. f_equal. unfold vstart, isize in *. rewrite TG in *. cbn [itemsize] in *. lia. }
  rewrite SS. exists (slice (memory s) (Z.to_nat (place v j)) 2).
  assert (place v j = vstart v + j * 2) as PL by (unfold place, vstart, isize; rewrite TG; reflexivity).
  destruct (slice_at (data_of (ss_mem s)) (place v j) 2) as [A B]; [lia|lia|].
  split; [exact A|]. split; [exact B|]. rewrite number_of_le, N2Z.id. reflexivity.
Qed.
(** ... is the block's own: no other operation shows in it ... *)
Theorem C62_half_private : forall k tr s h v ro o i, session_from k tr s -> open_on tr h v ro -> copied native_half v ->
  (forall raised, o <> TClose h raised) -> (forall i x, o <> TSet h i x) ->
  fst (trun (snd (trun s o)) (TGet h i)) = fst (trun s (TGet h i)).
Proof.
  intros k tr s h v ro o i SF OO [TG NH] NC NS. destruct (opened_half _ _ _ _ _ _ _ _ _ _ _ SF OO TG NH) as [V [copy [E LC]]].
  set (rr := (ro || vw_readonly v || locked k)%bool) in *. clearbody rr.
  assert (nth_error (ss_handles (snd (trun s o))) h = nth_error (ss_handles s) h) as HH.
  { rewrite E. destruct o as [v' ro'|h' raised|h'|h' i'|h' i' x|h' f off little|h' f off x little|n]; cbn [ModelTyped.trun].
    - cbn [snd ss_handles]. rewrite nth_error_app1 by (apply nth_error_Some; congruence). auto.
    - assert (forall k', nth_error (ss_handles (mkSession k' (replace_nth h' HClosed (ss_handles s)))) h = Some (HHalf v copy rr)) as CL.
      { intros k'. cbn [ss_handles]. rewrite replace_nth_nth. destruct (Nat.eqb_spec h' h) as [->|Ne]; [exfalso; eapply NC; reflexivity|auto]. }
      destruct (nth_error (ss_handles s) h') as [[]|]; unfold set_handle; cbn [snd]; try apply CL; auto.
      destruct (raised || _)%bool; cbn [snd]; [apply CL|]. destruct (ModelTyped.write_back _ _ _ _ _) as [e k']. cbn [snd]. apply CL.
    - destruct (nth_error (ss_handles s) h') as [[]|]; auto.
    - destruct (nth_error (ss_handles s) h') as [[]|]; auto; destruct (mv_index _ _); auto.
    - destruct (nth_error (ss_handles s) h') as [[v' c r|v' c r|v' c r|]|]; auto; destruct r; auto; destruct (mv_index _ _); auto; destruct (item_bits _ _ _ _ _); auto.
      unfold set_handle. cbn [snd ss_handles]. rewrite replace_nth_nth. destruct (Nat.eqb_spec h' h) as [->|Ne]; [exfalso; eapply NS; reflexivity|auto].
    - destruct (nth_error (ss_handles s) h') as [[v' c r|v' c r|v' c r|]|]; auto; destruct ((off <? 0) || _)%bool; auto.
    - destruct (nth_error (ss_handles s) h') as [[v' c r|v' c r|v' c r|]|]; auto; destruct ((off <? 0) || _)%bool; auto; destruct r; auto; destruct (dv_bits _ _ _); auto.
    - destruct (ss_mem s); auto. destruct (jsbuf_resize _ _); auto. destruct (_ && _)%bool; auto. }
  cbn [ModelTyped.trun]. rewrite HH, E. destruct (mv_index _ _); reflexivity.
Qed.
(** ... takes assignments without touching the buffer ... *)
Theorem C62_half_set : forall k tr s h v ro i i2 x n, session_from k tr s -> open_on tr h v ro -> copied native_half v ->
  trun s (TLen h) = (TNum n, s) ->
  let r := trun s (TSet h i x) in
  memory (snd r) = memory s /\
  (~ writable k v ro -> r = (TExn EType, s)) /\
  (writable k v ro -> (forall j, ~ at_index n i j) -> r = (TExn EIndex, s)) /\
  (writable k v ro -> forall j j2, at_index n i j -> at_index n i2 j2 ->
    (r = (TExn EValue, s) /\ exists z, x = DVInt z /\ float_of z = None) \/
    (fst r = TUnit /\ (exists b, (x = DVFloat b \/ exists z, x = DVInt z /\ float_of z = Some b) /\
       fst (trun (snd r) (TGet h i)) = TVal (DVFloat (widen 4 (cast32 b)))) /\
     (j2 <> j -> fst (trun (snd r) (TGet h i2)) = fst (trun s (TGet h i2))))).
Proof.
  intros k tr s h v ro i i2 x n SF OO [TG NH] LN. destruct (opened_half _ _ _ _ _ _ _ _ _ _ _ SF OO TG NH) as [V [copy [E LC]]].
  cbn zeta. rewrite writable_locked. cbn [ModelTyped.trun] in LN |- *. rewrite E in LN |- *. injection LN as LN. rewrite LN in *.
  split; [|split; [|split]].
  - destruct (_ || _)%bool; [reflexivity|]. destruct (mv_index n i); [|reflexivity]. destruct (item_bits _ _ _ _ _); reflexivity.
  - intros W. apply not_false_is_true in W. rewrite W. reflexivity.
  - intros -> NA. pose proof (mv_index_spec n i) as MI. destruct (mv_index n i) as [j|]; [exfalso; eapply NA; eauto|reflexivity].
  - intros -> j j2 AT AT2. rewrite (mv_index_at _ _ _ AT). rewrite (mv_index_at _ _ _ AT2).
    assert (forall b, let s2 := set_handle s h (HHalf v (replace_nth (Z.to_nat j) b copy) false) in
      nth_error (ss_handles s2) h = Some (HHalf v (replace_nth (Z.to_nat j) b copy) false) /\ Z.of_nat (length (replace_nth (Z.to_nat j) b copy)) = n /\
      nth (Z.to_nat j) (replace_nth (Z.to_nat j) b copy) 0%N = b /\ (j2 <> j -> nth (Z.to_nat j2) (replace_nth (Z.to_nat j) b copy) 0%N = nth (Z.to_nat j2) copy 0%N)) as ST.
    { intros b. unfold set_handle. cbn [ss_handles]. rewrite replace_nth_nth, Nat.eqb_refl, E. split; [reflexivity|]. rewrite replace_nth_len. split; [auto|].
      destruct AT as [J _]. destruct AT2 as [J2 _].
      assert (forall q, (q < length copy)%nat -> nth_error (replace_nth (Z.to_nat j) b copy) q = if Nat.eqb (Z.to_nat j) q then Some b else nth_error copy q) as RN.
      { intros q Q. rewrite replace_nth_nth. destruct (Nat.eqb _ _); [|reflexivity]. destruct (nth_error copy q) eqn:NQ; [reflexivity|]. apply nth_error_None in NQ. lia. }
      split.
      - pose proof (RN (Z.to_nat j) ltac:(lia)) as Q. rewrite Nat.eqb_refl in Q. apply nth_error_nth. exact Q.
      - intros Ne. pose proof (RN (Z.to_nat j2) ltac:(lia)) as Q. destruct (Nat.eqb_spec (Z.to_nat j) (Z.to_nat j2)) as [Q2|_]; [lia|].
        apply nth_error_nth. rewrite Q. apply nth_error_nth'. lia. }
    assert (forall b, (x = DVFloat b \/ exists z, x = DVInt z /\ float_of z = Some b) -> 
      let s2 := set_handle s h (HHalf v (replace_nth (Z.to_nat j) (cast32 b) copy) false) in
      fst (TUnit, s2) = TUnit /\ (exists b, (x = DVFloat b \/ exists z, x = DVInt z /\ float_of z = Some b) /\ fst (trun s2 (TGet h i)) = TVal (DVFloat (widen 4 (cast32 b)))) /\
      (j2 <> j -> fst (trun s2 (TGet h i2)) = TVal (DVFloat (widen 4 (nth (Z.to_nat j2) copy 0%N))))) as DONE.
    { intros b XB s2. destruct (ST (cast32 b)) as [H1 [H2 [H3 H4]]]. fold s2 in H1. split; [reflexivity|]. cbn [ModelTyped.trun]. rewrite H1, H2.
      rewrite (mv_index_at _ _ _ AT), (mv_index_at _ _ _ AT2). cbn [fst]. rewrite H3. split; [exists b; auto|]. intros Ne. rewrite H4 by auto. reflexivity. }
    destruct x as [z|b]; cbn [item_bits].
    + destruct (float_of z) as [b|] eqn:FO; [right; unfold float_item; cbn [Nat.eqb]; apply DONE; eauto|left; eauto].
    + right. unfold float_item. cbn [Nat.eqb]. apply DONE. eauto.
Qed.
(** ... and is written to the buffer when the block ends normally: every item as it reads then, and no other byte. *)
Theorem C62_half_close : forall k tr s h v ro n, session_from k tr s -> open_on tr h v ro -> copied native_half v ->
  (forall b p, narrow 2 b = Some p -> (p < 65536)%N) ->
  trun s (TLen h) = (TNum n, s) -> writable k v ro ->
  (forall j, 0 <= j < n -> exists x p, fst (trun s (TGet h j)) = TVal (DVFloat x) /\ narrow 2 x = Some p) ->
  exists s' bs, trun s (TClose h false) = (TUnit, s') /\ patched (memory s) (Z.to_nat (place v 0)) bs (memory s') /\
    Z.of_nat (length bs) = 2 * n /\
    forall j, 0 <= j < n -> exists x p, fst (trun s (TGet h j)) = TVal (DVFloat x) /\ narrow 2 x = Some p /\
      number_of (slice bs (Z.to_nat (2 * j)) 2) = Z.of_N p.
Proof.
  intros k tr s h v ro n SF OO [TG NH] NF LN W ALL. destruct (opened_half _ _ _ _ _ _ _ _ _ _ _ SF OO TG NH) as [V [copy [E LC]]].
  destruct (session_from_ok _ _ _ _ _ _ _ _ SF) as [[GD HO] L].
  apply writable_locked in W. rewrite W in *.
  assert (locked (ss_mem s) = false) as LK by (rewrite L; destruct (locked k); auto; rewrite orb_true_r in W; discriminate).
  cbn [ModelTyped.trun] in *. rewrite E in *. injection LN as LN. cbn [orb].
  destruct (items_inside (zlen (data_of (ss_mem s))) v V (zlen_nonneg _)) as [I0 I]. rewrite <- LC, LN, TG in I. change (isize vFloat16) with 2 in I.
  assert (0 <= vstart v) as VS by (unfold vstart, isize; destruct V; nia).
  assert (exists ps, length ps = length copy /\ forall q, (q < length copy)%nat -> narrow 2 (widen 4 (nth q copy 0%N)) = Some (nth q ps 0%N)) as [ps [PL PS]].
  { assert (forall q, (q < length copy)%nat -> exists p, narrow 2 (widen 4 (nth q copy 0%N)) = Some p) as A.
    { intros q Q. destruct (ALL (Z.of_nat q)) as [x [p [G P]]]; [lia|]. rewrite (mv_index_at _ _ (Z.of_nat q)) in G by (unfold at_index; lia).
      cbn [fst] in G. rewrite Nat2Z.id in G. injection G as <-. eauto. }
    clear - A. induction copy as [|c r IH]; [exists []; split; [auto|intros; cbn in *; lia]|].
    destruct IH as [ps [P1 P2]]. { intros q Q. apply (A (Datatypes.S q)). cbn [length]. lia. }
    destruct (A 0%nat ltac:(cbn; lia)) as [p P]. exists (p :: ps). split; [cbn; lia|]. intros [|q] Q; [exact P|]. apply P2. cbn [length] in Q. lia. }
  assert (forall copy ps k0 pos, good k0 -> locked k0 = false -> 0 <= pos -> (copy = [] \/ pos + Z.of_nat (length copy) * 2 <= zlen (data_of k0)) -> length ps = length copy ->
     (forall q, (q < length copy)%nat -> narrow 2 (widen 4 (nth q copy 0%N)) = Some (nth q ps 0%N)) ->
     exists k', write_back narrow widen k0 pos copy = (None, k') /\ (copy = [] -> k' = k0) /\ (copy <> [] -> data_of k' = splice (data_of k0) (Z.to_nat pos) (flat_map (le_bytes 2) ps))) as WB.
  { clear. induction copy as [|c r IH]; intros ps k0 pos G LK P I PL PS; cbn [write_back].
    - exists k0. split; [auto|]. split; [auto|congruence].
    - destruct ps as [|p ps]; [discriminate|]. pose proof (PS 0%nat ltac:(cbn; lia)) as P0. cbn [nth] in P0. rewrite P0.
      destruct I as [I|I]; [discriminate|]. cbn [length] in *.
      destruct (write_good k0 (Z.to_nat pos) (le_bytes 2 p) G LK (le_bytes_ok _ _)) as [G1 [D1 [L1 Z1]]].
      { rewrite le_bytes_length. unfold zlen in I. lia. }
      destruct (IH ps (bk_write k0 (Z.to_nat pos) (le_bytes 2 p)) (pos + 2)) as [k' [W1 [W2 W3]]]; auto; try lia.
      { intros q Q. apply (PS (Datatypes.S q)). lia. }
      exists k'. split; [auto|]. split; [discriminate|]. intros _. cbn [flat_map].
      assert (data_of k' = splice (splice (data_of k0) (Z.to_nat pos) (le_bytes 2 p)) (Z.to_nat (pos + 2)) (flat_map (le_bytes 2) ps)) as D2.
      { destruct r as [|c2 r].
        - destruct ps; [|discriminate]. rewrite (W2 eq_refl), D1. cbn [flat_map]. generalize (splice (data_of k0) (Z.to_nat pos) (le_bytes 2 p)). clear. intros d. unfold splice. cbn [app length]. rewrite Nat.add_0_r, firstn_skipn. reflexivity.
        - rewrite W3 by discriminate. rewrite D1. reflexivity. }
      rewrite D2. unfold splice. rewrite app_length, le_bytes_length. unfold zlen in I.
      assert (length (flat_map (le_bytes 2) ps) = 2 * length ps)%nat as FL.
      { clear. induction ps; cbn [flat_map length]; [reflexivity|]. rewrite app_length, le_bytes_length. lia. }
      rewrite firstn_app, firstn_length, Nat.min_l by lia. rewrite firstn_firstn.
      replace (Nat.min (Z.to_nat (pos + 2)) (Z.to_nat pos)) with (Z.to_nat pos) by lia.
      rewrite firstn_app, le_bytes_length. replace (Z.to_nat (pos + 2) - Z.to_nat pos)%nat with 2%nat by lia.
      rewrite (firstn_all2 (le_bytes 2 p)) by (rewrite le_bytes_length; lia). rewrite Nat.sub_diag. cbn [firstn]. rewrite app_nil_r.
      rewrite skipn_app, firstn_length, Nat.min_l by lia. rewrite skipn_all2 by (rewrite firstn_length; lia).
      rewrite skipn_app, le_bytes_length. rewrite (skipn_all2 (le_bytes 2 p)) by (rewrite le_bytes_length; lia). cbn [app].
      rewrite <- !app_assoc. do 3 f_equal.
      assert (forall (a b : nat) (d : bytes), skipn a (skipn b d) = skipn (b + a) d) as SK.
      { clear. intros a b. induction b as [|b IH]; intros d; [reflexivity|]. destruct d; cbn [skipn Nat.add]; [destruct a; reflexivity|apply IH]. }
      rewrite SK. f_equal. lia. }
  destruct (WB copy ps (ss_mem s) (vstart v) GD LK VS) as [k' [W1 [W2 W3]]]; auto.
  { destruct I as [I|I]; [left; destruct copy; [auto|cbn in *; lia]|right; lia]. }
  rewrite W1. eexists _, (flat_map (le_bytes 2) ps). split; [reflexivity|].
  assert (length (flat_map (le_bytes 2) ps) = 2 * length ps)%nat as FL.
  { clear. induction ps; cbn [flat_map length]; [reflexivity|]. rewrite app_length, le_bytes_length. lia. }
  split; [|split].
  - unfold memory at 2. cbn [ss_mem]. unfold place. rewrite Z.mul_0_l, Z.add_0_r. fold (isize (vw_tag v)). fold (vstart v).
    destruct copy as [|c r].
    + destruct ps; [|discriminate]. rewrite (W2 eq_refl). unfold patched. split; [reflexivity|]. intros q. cbn [flat_map length].
      destruct (Nat.leb_spec (Z.to_nat (vstart v)) q), (Nat.ltb_spec q (Z.to_nat (vstart v) + 0)); cbn [andb]; try reflexivity. lia.
    + rewrite W3 by discriminate. apply splice_patched. rewrite FL. cbn [length] in *. unfold memory, zlen in *. lia.
  - lia.
  - intros j J. exists (widen 4 (nth (Z.to_nat j) copy 0%N)), (nth (Z.to_nat j) ps 0%N).
    rewrite (mv_index_at _ _ j) by (unfold at_index; lia). split; [reflexivity|]. split; [apply PS; lia|].
    assert (forall q ps, (q < length ps)%nat -> slice (flat_map (le_bytes 2) ps) (2 * q) 2 = le_bytes 2 (nth q ps 0%N)) as SF2.
    { clear. induction q as [|q IH]; intros [|p ps] Q; cbn [length] in Q; try lia; [reflexivity|].
      replace (2 * Datatypes.S q)%nat with (Datatypes.S (Datatypes.S (2 * q))) by lia. cbn [nth]. rewrite <- IH by lia. reflexivity. }
    replace (Z.to_nat (2 * j)) with (2 * Z.to_nat j)%nat by lia. rewrite SF2 by lia.
    rewrite number_of_le, of_le_le_bytes; [reflexivity|]. eapply NF. apply PS. lia.
Qed.
(** So a block that assigns nothing, over items that survive the conversions, leaves the buffer as it was ... *)
Corollary C62_half_untouched : forall k tr s v ro h s1, session_from k tr s -> view_ok v -> copied native_half v -> writable k v ro ->
  (forall b p, narrow 2 b = Some p -> (p < 65536)%N) ->
  (forall bs j, length bs = 2%nat -> part_of bs (memory s) (place v j) ->
     narrow 2 (widen 4 (cast32 (widen 2 (Z.to_N (number_of bs))))) = Some (Z.to_N (number_of bs))) ->
  trun s (TOpen v ro) = (THandle h, s1) -> exists s2, trun s1 (TClose h false) = (TUnit, s2) /\ memory s2 = memory s.
Proof.
  intros k tr s v ro h s1 SF V CP W NF STABLE OP.
  assert (session_from k (tr ++ [(TOpen v ro, THandle h)]) s1) as SF1.
  { destruct SF as [G [ops [F T]]]. split; [auto|]. exists (ops ++ [TOpen v ro]). split; [apply Forall_app; split; [auto|constructor; [exact V|constructor]]|].
    revert T. generalize (mkSession k []) tr. clear - OP. induction ops as [|o ops IH]; intros s0 tr T; cbn [ModelTyped.truns app] in *.
    - injection T as <- <-. rewrite OP. reflexivity.
    - destruct (trun s0 o) as [x s2]. destruct (truns s2 ops) as [t2 s3] eqn:T2. injection T as <- <-. rewrite (IH _ _ T2). reflexivity. }
  assert (open_on (tr ++ [(TOpen v ro, THandle h)]) h v ro) as OO by (exists tr, []; split; [reflexivity|intros x r []]).
  assert (memory s1 = memory s) as MS by (cbn [ModelTyped.trun] in OP; injection OP as _ <-; reflexivity).
  destruct (C62_window _ _ _ _ _ _ SF1 OO) as [n [LN [_ INS]]].
  assert (forall j, 0 <= j < n -> exists bs, length bs = 2%nat /\ part_of bs (memory s) (place v j) /\
    trun s1 (TGet h j) = (TVal (DVFloat (widen 4 (cast32 (widen 2 (Z.to_N (number_of bs)))))), s1)) as RD.
  { intros j J. eapply C62_half_opened; eauto. split; [exact J|auto]. }
  destruct (C62_half_close _ _ _ _ _ _ n SF1 OO CP NF LN W) as [s2 [bs [CL [PT [LB IT]]]]].
  { intros j J. destruct (RD j J) as [b2 [B1 [B2 B3]]]. rewrite B3. cbn [fst]. eexists _, _. split; [reflexivity|]. apply (STABLE b2 j B1 B2). }
  exists s2. split; [auto|]. rewrite MS in PT. destruct PT as [PL PN].
  apply (nth_ext _ _ 0%N 0%N PL). intros q Q. 
  assert (nth_error (memory s2) q = nth_error (memory s) q) as NE; [|rewrite (nth_error_nth' _ 0%N Q), (nth_error_nth' _ 0%N) in NE by lia; congruence].
  rewrite PN. destruct (Nat.leb (Z.to_nat (place v 0)) q && Nat.ltb q (Z.to_nat (place v 0) + length bs))%bool eqn:IN; [|reflexivity].
  set (j := (Z.of_nat q - place v 0) / 2).
  destruct CP as [TG NH]. assert (forall j, place v j = place v 0 + 2 * j) as PJ by (intros; unfold place; rewrite TG; cbn [itemsize]; lia).
  assert (0 <= place v 0) as P0 by (unfold place; destruct V; nia).
  assert (0 <= j < n) as J by (unfold j; split; [apply Z.div_pos; lia|apply Z.div_lt_upper_bound; lia]).
  destruct (RD j J) as [b2 [B1 [[pre [post [B2 B2']]] B3]]]. destruct (IT j J) as [x [p [G1 [G2 G3]]]].
  rewrite B3 in G1. cbn [fst] in G1. injection G1 as <-.
  rewrite (STABLE b2 j B1 (ex_intro _ pre (ex_intro _ post (conj B2 B2')))) in G2. injection G2 as <-.
  destruct (session_from_ok _ _ _ _ _ _ _ _ SF) as [[[GB _] _] _]. fold (memory s) in GB.
  assert (bytes_ok b2) as OK2 by (unfold bytes_ok in *; rewrite B2, !Forall_app in GB; tauto).
  pose proof (session_from_ok _ _ _ _ _ _ _ _ SF1) as [OK1 _].
  assert (slice bs (Z.to_nat (2 * j)) 2 = b2) as SB.
  { set (sl := slice bs (Z.to_nat (2 * j)) 2) in *. assert (length sl = 2%nat) as SL by (unfold sl; rewrite slice_length; lia).
    assert (bytes_ok sl) as SO.
    { apply bytes_ok_slice. 
      assert (top_ok (TClose h false)) as TO by exact I.
      destruct (trun_ok narrow cast32 widen float_of native_half s1 (TClose h false) OK1 TO) as [[[G2 _] _] _]. rewrite CL in G2. cbn [snd] in G2. fold (memory s2) in G2.
      unfold bytes_ok in *. rewrite Forall_forall in *. intros y IY. apply In_nth_error in IY as [a IY]. apply G2. eapply nth_error_In with (n := (Z.to_nat (place v 0) + a)%nat).
      rewrite PN. assert (a < length bs)%nat by (apply nth_error_Some; congruence).
      destruct (Nat.leb_spec (Z.to_nat (place v 0)) (Z.to_nat (place v 0) + a)), (Nat.ltb_spec (Z.to_nat (place v 0) + a) (Z.to_nat (place v 0) + length bs)); cbn [andb]; try lia.
      replace (Z.to_nat (place v 0) + a - Z.to_nat (place v 0))%nat with a by lia. exact IY. }
    rewrite <- (le_bytes_of_le sl SO), <- (le_bytes_of_le b2 OK2), SL, B1. f_equal. rewrite !number_of_le in G3. lia. }
  assert (forall (d : bytes) a w q, (q < w)%nat -> nth_error (slice d a w) q = nth_error d (a + q)) as NS.
  { clear. intros d a w q Q. unfold slice. revert d w Q. induction a as [|a IH]; intros d w Q; cbn [skipn Nat.add].
    - revert d w Q. induction q as [|q IQ]; intros [|x d] [|w] Q; cbn [firstn nth_error]; try lia; auto. apply IQ. lia.
    - destruct d; cbn [nth_error]; [rewrite firstn_nil; destruct q; reflexivity|]. apply IH. auto. }
  set (off := Z.to_nat (Z.of_nat q - place v j)). assert (off < 2)%nat as O2.
  { unfold off. rewrite PJ. pose proof (Z.mul_div_le (Z.of_nat q - place v 0) 2 ltac:(lia)). pose proof (Z.mul_succ_div_gt (Z.of_nat q - place v 0) 2 ltac:(lia)). fold j in H, H0. lia. }
  assert (0 <= Z.of_nat q - place v j) as OP0. { rewrite PJ. pose proof (Z.mul_div_le (Z.of_nat q - place v 0) 2 ltac:(lia)). fold j in H. lia. }
  replace (q - Z.to_nat (place v 0))%nat with (Z.to_nat (2 * j) + off)%nat by (unfold off; rewrite PJ in *; lia).
  rewrite <- NS with (w := 2%nat) by exact O2. rewrite SB, B2.
  replace q with (length pre + off)%nat by (unfold off; lia). rewrite nth_error_app2 by lia. replace (length pre + off - length pre)%nat with off by lia.
  rewrite nth_error_app1 by lia. reflexivity.
Qed.
End Typed.

(** A Uint8ClampedArray does not clamp: numbers that do not fit raise, as in a Uint8Array. *)
Theorem C62_clamped_refuted : forall narrow cast32 widen float_of native_half k tr s h v ro i j z n,
  session_from narrow cast32 widen float_of native_half k tr s -> open_on tr h v ro -> vw_tag v = vUint8Clamped -> writable k v ro ->
  trun narrow cast32 widen float_of native_half s (TLen h) = (TNum n, s) -> at_index n i j -> ~ (0 <= z < 256) ->
  trun narrow cast32 widen float_of native_half s (TSet h i (DVInt z)) = (TExn EValue, s).
Proof.
  intros narrow cast32 widen float_of native_half k tr s h v ro i j z n SF OO TG W LN AT NZ.
  destruct (opened_typed _ _ _ _ _ _ _ _ _ _ _ SF OO) as [V E]; [congruence|congruence|].
  cbn [trun] in LN |- *. rewrite E in LN |- *. injection LN as ->. apply writable_locked in W. rewrite W, (mv_index_at _ _ _ AT), TG.
  cbn [elem_format item_bits]. change (2 ^ (8 * Z.of_nat 1)) with 256. destruct ((0 <=? z) && (z <? 256))%bool eqn:C; [lia|reflexivity].
Qed.

Definition half_view : view := mkView vFloat16 0 None false.
Definition byte_view : view := mkView vUint8 0 None false.
(** Where 16-bit floats are copied, ending their block undoes what others wrote meanwhile, though the block assigned nothing. *)
Theorem C62_half_lost_update_refuted : forall narrow cast32 widen float_of,
  narrow 2%nat (widen 4%nat (cast32 (widen 2%nat 0%N))) = Some 0%N ->
  exists tr s, session_from narrow cast32 widen float_of false (BkByteArray [0; 0]%N) tr s /\
    In (TSet 1 0 (DVInt 1), TUnit) tr /\ memory s = [0; 0]%N /\
    map fst tr = [TOpen half_view false; TOpen byte_view false; TSet 1 0 (DVInt 1); TClose 1 false; TClose 0 false].
Proof.
  intros narrow cast32 widen float_of H.
  assert (session_from narrow cast32 widen float_of false (BkByteArray [0; 0]%N)
    [(TOpen half_view false, THandle 0); (TOpen byte_view false, THandle 1); (TSet 1 0 (DVInt 1), TUnit); (TClose 1 false, TUnit); (TClose 0 false, TUnit)]
    (mkSession (BkByteArray [0; 0]%N) [HClosed; HClosed])) as SF.
  { split; [split; [repeat constructor|exact I]|].
    exists [TOpen half_view false; TOpen byte_view false; TSet 1 0 (DVInt 1); TClose 1 false; TClose 0 false]. split.
    - repeat constructor; cbn; lia.
    - vm_compute. rewrite H. reflexivity. }
  eexists _, _. split; [exact SF|]. split; [cbn; tauto|]. split; reflexivity.
Qed.
(** A block left by an exception keeps what it assigned, except where 16-bit floats are copied: there it is lost. *)
Theorem C62_half_raised_refuted : forall narrow cast32 widen float_of b p, (p < 65536)%N -> (p <> 0)%N -> narrow 2%nat b = Some p ->
  let ops := [TOpen half_view false; TSet 0 0 (DVFloat b); TClose 0 true] in
  let final native := truns narrow cast32 widen float_of native (mkSession (BkByteArray [0; 0]%N) []) ops in
  map snd (fst (final true)) = map snd (fst (final false)) /\
  memory (snd (final true)) = [p mod 256; p / 256]%N /\ memory (snd (final false)) = [0; 0]%N.
Proof.
  intros narrow cast32 widen float_of b p L P NR.
  assert ([p mod 256; p / 256]%N = le_bytes 2 p) as ->.
  { cbn [le_bytes]. do 2 f_equal. symmetry. apply N.mod_small. apply N.div_lt_upper_bound; [discriminate|exact L]. }
  cbv -[le_bytes]. rewrite NR. repeat split.
Qed.
(** There a number too large for a 16-bit float is accepted by the assignment; the end of the block raises and leaves zeros. *)
Theorem C62_half_overflow_refuted : forall narrow cast32 widen float_of b, narrow 2%nat (widen 4%nat (cast32 b)) = None ->
  truns narrow cast32 widen float_of false (mkSession (BkByteArray [1; 60]%N) []) [TOpen half_view false; TSet 0 0 (DVFloat b); TClose 0 false] =
    ([(TOpen half_view false, THandle 0); (TSet 0 0 (DVFloat b), TUnit); (TClose 0 false, TExn EOverflow)],
     mkSession (BkByteArray [0; 0]%N) [HClosed]).
Proof. intros narrow cast32 widen float_of b H. vm_compute. rewrite H. reflexivity. Qed.

(** A buffer of six bytes with a 16-bit and an 8-bit typed array and a DataView over it. *)
Definition case_ops : list top :=
  [TOpen (mkView vInt16 1 None false) false; TOpen (mkView vUint8 0 (Some 5) false) false; TOpen (mkView vDataView 2 None false) true;
   TSet 0 (-1) (DVInt (-2)); TResize 4].
Definition id_narrow (w : nat) (b : N) : option N := if (b <? 256 ^ N.of_nat w)%N then Some b else None.
Definition case_end : list (top * tresp) * session :=
  truns id_narrow (fun b => (b mod 2 ^ 32)%N) (fun _ b => b) (fun _ => None) true (mkSession (BkBuffer (mkBuf [1; 2; 3; 4; 5; 6]%N 8 true false)) []) case_ops.
Example C62_case :
  session_from id_narrow (fun b => (b mod 2 ^ 32)%N) (fun _ b => b) (fun _ => None) true (BkBuffer (mkBuf [1; 2; 3; 4; 5; 6]%N 8 true false)) (fst case_end) (snd case_end) /\
  open_on (fst case_end) 0 (mkView vInt16 1 None false) false /\ open_on (fst case_end) 2 (mkView vDataView 2 None false) true /\
  map snd (fst case_end) = [THandle 0; THandle 1; THandle 2; TUnit; TBufferError] /\ memory (snd case_end) = [1; 2; 3; 4; 254; 255]%N /\
  (forall w b p, id_narrow w b = Some p -> (p < 256 ^ N.of_nat w)%N) /\ (forall b, b mod 2 ^ 32 < 2 ^ 32)%N /\
  fst (trun id_narrow (fun b => (b mod 2 ^ 32)%N) (fun _ b => b) (fun _ => None) true (snd case_end) (TGet 1 4)) = TVal (DVInt 254) /\
  fst (trun id_narrow (fun b => (b mod 2 ^ 32)%N) (fun _ b => b) (fun _ => None) true (snd case_end) (TGetData 2 (DSigned 2) 2 true)) = TVal (DVInt (-2)).
Proof.
  split; [split; [split; [repeat constructor|discriminate]|exists case_ops; split; [repeat constructor; cbn; lia|symmetry; apply surjective_pairing]]|].
  split; [exists []; eexists; split; [reflexivity|intros x r Q; cbn in Q; intuition discriminate]|].
  split; [eexists [_; _], _; split; [reflexivity|intros x r Q; cbn in Q; intuition discriminate]|].
  split; [reflexivity|]. split; [reflexivity|].
  split; [intros w b p; unfold id_narrow; destruct (N.ltb_spec b (256 ^ N.of_nat w)); [intros Q; injection Q as <-; auto|discriminate]|].
  split; [intros b; apply N.mod_lt; discriminate|]. split; reflexivity.
Qed.

Print Assumptions C62_window.
Print Assumptions C62_fixed_while_open.
Print Assumptions C62_resize.
Print Assumptions C62_get.
Print Assumptions C62_set.
Print Assumptions C62_data_get.
Print Assumptions C62_data_set.
Print Assumptions C62_readers.
Print Assumptions C62_views_agree.
Print Assumptions C62_data_view_agrees.
Print Assumptions C62_local.
Print Assumptions C62_half_opened.
Print Assumptions C62_half_private.
Print Assumptions C62_half_set.
Print Assumptions C62_half_close.
Print Assumptions C62_half_untouched.
Print Assumptions C62_clamped_refuted.
Print Assumptions C62_half_lost_update_refuted.
Print Assumptions C62_half_raised_refuted.
Print Assumptions C62_half_overflow_refuted.
