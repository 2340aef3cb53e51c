(** C80, continued: memory that may not change its size, closing, and examples. *)
From Coq Require Import List NArith ZArith Bool Lia ZifyBool ZifyNat.
From Verif Require Import Base ModelArray ModelBuffer ModelOwner SpecOwner OwnerFacts OwnerFacts2 OwnerFacts3 OwnerFacts4 Prop_Owner Prop_Owner2 Prop_Owner3 Prop_Owner4.
Import ListNotations.
Open Scope Z_scope.

(** ** Kinds of variables *)
Definition kind (st : mstate) (o : mop) (x : pyvar) : Prop :=
  match x with
  | PvBlock _ => exists d, o = MBytes d \/ o = MByteArray d
  | PvView _ => memoryview_op o
  | PvBuffer (BdView _) _ _ => exists a h y, o = MBuffer a /\ made_from o = Some h /\ nth_error (s_vars st) h = Some y /\ ((exists w, y = PvView w) \/ wants_readonly a /\ type_of st h <> Some TBytes)
  | PvBuffer (BdBlock b) _ _ => exists a, o = MBuffer a /\ (made_from o = None \/ exists h, made_from o = Some h /\ nth_error (s_vars st) h = Some (PvBlock b))
  end.
Lemma made_kind p st o st' x : st_ok st -> mstep p st o = (st', MNew) -> s_vars st' = s_vars st ++ [x] -> kind st o x.
Proof.
  intros OK S VS. pose proof (new_only _ _ _ _ S) as NO.
  destruct o as [o1|o1|o1|o1 o2 o3|o1|o1|o1 o2 o3|o1 o2|o1 o2|a1|o1 o2|o1|o1]; try contradiction; cbn [mstep] in S.
  - injection S as <-. cbn [s_vars] in VS. apply app_inv_head in VS. injection VS as <-. cbn [kind]. eauto.
  - injection S as <-. cbn [s_vars] in VS. apply app_inv_head in VS. injection VS as <-. cbn [kind]. eauto.
  - destruct (source_of p st o1) as [b|w|e|w]; try discriminate; injection S as <-; cbn [s_vars] in VS; apply app_inv_head in VS; injection VS as <-; exact I.
  - destruct (nth_error (s_vars st) o1) as [[b|w|d mx r]|] eqn:Y; try discriminate. destruct (w_live w); [|discriminate]. injection S as <-.
    cbn [s_vars] in VS. apply app_inv_head in VS. injection VS as <-. exact I.
  - destruct (nth_error (s_vars st) o1) as [[b|w|d mx r]|] eqn:Y; try discriminate. destruct (w_live w); [|discriminate]. injection S as <-.
    cbn [s_vars] in VS. apply app_inv_head in VS. injection VS as <-. exact I.
  - unfold new_buffer in S. cbv zeta in S. destruct (_ && _); [discriminate|]. destruct (choose_data p st a1 _ _) as [[dd s1]|e] eqn:CH; [|discriminate].
    destruct (_ && _); [discriminate|]. destruct (_ <? _); [discriminate|]. injection S as <-. cbn [s_vars] in VS.
    set (ro := match na_readonly a1 with Some r => r | None => false end) in *.
    assert (RO : ro = true -> wants_readonly a1) by (unfold ro, wants_readonly; destruct (na_readonly a1) as [[]|]; congruence).
    assert (G : s_vars s1 = s_vars st -> forall P, (forall mx r, P (PvBuffer dd mx r)) -> P x).
    { intros Es P H. rewrite Es in VS. apply app_inv_head in VS. injection VS as <-. apply H. }
    unfold choose_data in CH. destruct (na_length a1) as [n|] eqn:EL.
    { destruct (_ && _); [discriminate|]. injection CH as <- <-. apply G; [reflexivity|]. intros mx r. exists a1. split; [reflexivity|]. left. cbn [made_from]. rewrite EL. reflexivity. }
    destruct (na_data a1) as [h|] eqn:ED.
    2:{ destruct (_ && _); [discriminate|]. injection CH as <- <-. apply G; [reflexivity|]. intros mx r. exists a1. split; [reflexivity|]. left. cbn [made_from]. rewrite EL, ED. reflexivity. }
    destruct (source_shape p st h) as [(e & So)|(y & Y & So)].
    { rewrite So in CH. destruct (nth_error (s_vars st) h) as [[|? |]|]; try discriminate. destruct (_ || _); discriminate. }
    assert (NC : na_copy a1 = Some false \/ (match na_copy a1 with Some c => c | None => true end = true /\ made_from (MBuffer a1) = None)).
    { cbn [made_from]. rewrite EL, ED. destruct (na_copy a1) as [[]|]; auto. }
    destruct NC as [NC|[NC1 NC2]].
    2:{ rewrite NC1 in CH. assert (CPY : forall k, Ok (BdBlock (length (s_blocks st)), add_block st (mkBlock k (negb ro))) = Ok (dd, s1) -> kind st (MBuffer a1) x).
        { intros k X. injection X as <- <-. apply G; [reflexivity|]. intros mx r. exists a1. auto. }
        destruct (source_of p st h); [eapply CPY; exact CH|eapply CPY; exact CH|contradiction|eapply CPY; exact CH]. }
    assert (MF : made_from (MBuffer a1) = Some h) by (cbn [made_from]; rewrite EL, ED, NC; reflexivity). rewrite NC in CH.
    destruct (source_of p st h) as [b|w|e|w]; [| |contradiction|].
    + subst y. injection CH as <- <-. apply G; [reflexivity|]. intros mx r. destruct (ro && k_mut (blk st b)) eqn:Q.
      * exists a1, h, (PvBlock b). split; [reflexivity|]. split; [exact MF|]. split; [exact Y|]. right. apply andb_true_iff in Q as [Q1 Q2]. split; [auto|]. unfold type_of. rewrite Y, Q2. discriminate.
      * exists a1. split; [reflexivity|]. right. exists h. auto.
    + destruct So as [-> _]. injection CH as <- <-. apply G; [reflexivity|]. intros mx r. exists a1, h, (PvView w). split; [reflexivity|]. split; [exact MF|]. split; [exact Y|]. left. eauto.
    + destruct ro; [|discriminate]. injection CH as <- <-. apply G; [reflexivity|]. intros mx r. exists a1, h, y. split; [reflexivity|]. split; [exact MF|]. split; [exact Y|]. right. split; [auto|]. destruct So as (d & mx' & r' & -> & _). unfold type_of. rewrite Y. discriminate.
  - destruct (nth_error (s_vars st) o1) as [[b|w|d mx r]|] eqn:Y; try discriminate. destruct (buffer_view p st o1 d mx) as [w|] eqn:B; [|discriminate].
    injection S as <-. cbn [s_vars] in VS. apply app_inv_head in VS. injection VS as <-. exact I.
Qed.
Lemma type_later st st' h : st_ok st -> later st st' -> type_of st h <> None -> type_of st' h = type_of st h.
Proof.
  intros OK L N. unfold type_of in *. destruct (nth_error (s_vars st) h) as [y|] eqn:Y; [|contradiction]. destruct (lt_var _ _ L _ _ Y) as (y' & -> & Ly).
  destruct Ly as [[b| |]| |]; auto. rewrite (proj1 (lt_mut _ _ L b (vk_blk _ _ (OK _ _ Y)))). reflexivity.
Qed.
Lemma kind_later st st' o x x' : (forall v y, nth_error (s_vars st) v = Some y -> exists y', nth_error (s_vars st') v = Some y' /\ later_var y y') ->
  (forall v y, nth_error (s_vars st) v = Some y -> type_of st' v = type_of st v) -> later_var x x' -> kind st o x -> kind st' o x'.
Proof.
  intros V T L K. destruct L as [x|w|w mx r]; cbn [kind] in *; auto.
  - destruct x as [b|w|[b|w] mx r]; cbn [kind] in *; auto.
    + destruct K as (a & -> & [K|(h & K1 & K2)]); [eauto|]. exists a. split; [reflexivity|]. right. exists h. split; [exact K1|].
      destruct (V _ _ K2) as (y' & Y & L). inversion L; subst. exact Y.
    + destruct K as (a & h & y & -> & K1 & K2 & K3). destruct (V _ _ K2) as (y' & Y & L). exists a, h, y'. split; [reflexivity|]. split; [exact K1|]. split; [exact Y|].
      rewrite (T _ _ K2). destruct K3 as [[u ->]|K3]; [|auto]. left. inversion L; subst; eauto.
  - destruct K as (a & h & y & -> & K1 & K2 & K3). destruct (V _ _ K2) as (y' & Y & L). exists a, h, y'. split; [reflexivity|]. split; [exact K1|]. split; [exact Y|].
    rewrite (T _ _ K2). destruct K3 as [[u ->]|K3]; [|auto]. left. inversion L; subst; eauto.
Qed.
Lemma var_kind p ops st tr v o x : mrun p ms_start ops = (st, tr) -> made tr v o -> nth_error (s_vars st) v = Some x -> kind st o x.
Proof.
  intros E M X. destruct (made_made_at _ _ _ _ _ _ E M) as (a & st0 & st1 & x0 & A). destruct (made_at_var _ _ _ _ _ _ _ _ _ A) as (x' & X' & Lx).
  rewrite X in X'. injection X' as <-. refine (kind_later st0 st o x0 x _ _ Lx (made_kind _ _ _ _ _ (ma_ok _ _ _ _ _ _ _ _ _ A) (ma_step _ _ _ _ _ _ _ _ _ A) (ma_vars _ _ _ _ _ _ _ _ _ A))).
  - intros u y Y. apply (lt_var _ _ (ma_later _ _ _ _ _ _ _ _ _ A)). rewrite (ma_vars _ _ _ _ _ _ _ _ _ A), nth_error_app1; [exact Y|eapply lt_some; eauto].
  - intros u y Y. pose proof (mstep_later _ _ _ _ _ (ma_ok _ _ _ _ _ _ _ _ _ A) (ma_step _ _ _ _ _ _ _ _ _ A)) as L01.
    assert (T0 : type_of st0 u <> None) by (unfold type_of; rewrite Y; destruct y; discriminate).
    pose proof (type_later _ _ _ (ma_ok _ _ _ _ _ _ _ _ _ A) L01 T0) as T1. rewrite <- T1. apply (type_later st1 st); [exact (ma_ok1 _ _ _ _ _ _ _ _ _ A)|exact (ma_later _ _ _ _ _ _ _ _ _ A)|congruence].
Qed.

(** ** Changing the size *)
Lemma contents_some st v x w : nth_error (s_vars st) v = Some x -> any_view x = Some w -> (contents st v <> None <-> w_live w = true).
Proof.
  intros X A. unfold contents. rewrite X. destruct x as [b|u|[b|u] mx r]; try discriminate A; injection A as <-; destruct (w_live u); split; congruence.
Qed.
Lemma locked_pins p ops st tr h y : mrun p ms_start ops = (st, tr) -> nth_error (s_vars st) h = Some y -> k_mut (blk st (var_blk y)) = true ->
  (locked st (var_blk y) = true <-> exists v, pins tr st v /\ same_memory tr v h).
Proof.
  intros E Y MU. destruct (run_ok _ _ _ _ E) as [OK RT]. pose proof (ro_len _ _ RT) as RL.
  assert (VM : forall v x, nth_error (s_vars st) v = Some x -> exists o, made tr v o /\ kind st o x).
  { intros v x X. destruct (var_made _ _ _ _ v E) as [o M]; [rewrite RL; eapply lt_some; eauto|]. exists o. split; [exact M|eapply var_kind; eauto]. }
  split.
  - intros L. destruct (locked_live _ _ L) as (v & x & w & X & V & B). destruct (view_any _ _ V) as [A Lw]. exists v.
    split; [|unfold same_memory; apply (ro_blk _ _ RT _ _ _ _ X Y); rewrite <- (any_blk _ _ A); exact B].
    destruct (VM _ _ X) as (o & M & K). pose proof (proj2 (contents_some _ _ _ _ X A) Lw) as C. destruct x as [b|u|[b|u] mx r]; try discriminate A; cbn [kind] in K.
    + eapply pin_view; eauto.
    + destruct K as (a & h' & y' & -> & K1 & K2 & K3). eapply pin_wrap; [exact M|exact K1| |exact C]. destruct K3 as [[u' ->]|K3]; [|auto]. left.
      destruct (VM _ _ K2) as (o' & M' & K'). eauto.
  - intros (v & P & S). assert (exists x, nth_error (s_vars st) v = Some x) as [x X].
    { assert (contents st v <> None) by (destruct P; assumption). unfold contents in H. destruct (nth_error (s_vars st) v); [eauto|congruence]. }
    apply (ro_blk _ _ RT _ _ _ _ X Y) in S. rewrite <- S. destruct P as [o M Mo C|a h' M MF H C].
    + pose proof (var_kind _ _ _ _ _ _ _ E M X) as K. destruct x as [b|u|[b|u] mx r]; cbn [kind] in K.
      * destruct K as (d & [-> | ->]); contradiction.
      * cbn [var_blk]. apply (live_locked _ _ _ _ X). apply any_live; [reflexivity|]. apply (contents_some _ _ _ _ X eq_refl). exact C.
      * destruct K as (a & -> & _). contradiction.
      * destruct K as (a & h' & y' & -> & _). contradiction.
    + pose proof (var_kind _ _ _ _ _ _ _ E M X) as K. destruct x as [b|u|[b|u] mx r]; cbn [kind] in K.
      * destruct K as (d & [Q|Q]); discriminate.
      * contradiction.
      * destruct K as (a' & _ & [K|(h2 & K1 & K2)]); [congruence|]. exfalso. assert (h2 = h') as -> by congruence. destruct H as [(o & Mo & Vo)|Ro].
        -- pose proof (var_kind _ _ _ _ _ _ _ E Mo K2) as (d & [-> | ->]); contradiction.
        -- pose proof (proj2 (writable_frozen _ _ _ _ E v _ X) (fr_buffer _ _ _ M (proj1 Ro))) as W. cbn [writable var_blk] in *. congruence.
      * apply (live_locked _ _ _ _ X). apply any_live; [reflexivity|]. apply (contents_some _ _ _ _ X eq_refl). exact C.
Qed.
(** Changing the size of a bytearray or a resizable buffer raises BufferError exactly while the same memory is pinned. In particular a
    JSArrayBuffer that copied its data does not keep the source from changing its size, and the other way round. *)
Theorem C80_pinned : forall p ops st tr h o, mrun p ms_start ops = (st, tr) -> resizes st h o ->
  (snd (mstep p st o) = MBufferError <-> exists v, pins tr st v /\ same_memory tr v h) /\ (snd (mstep p st o) = MBufferError \/ snd (mstep p st o) = MDone).
Proof.
  intros p ops st tr h o E R. destruct (run_ok _ _ _ _ E) as [OK RT].
  assert (G : forall y d, nth_error (s_vars st) h = Some y -> k_mut (blk st (var_blk y)) = true -> length d <> length (k_data (blk st (var_blk y))) ->
    (snd (set_length st (var_blk y) d) = MBufferError <-> exists v, pins tr st v /\ same_memory tr v h) /\
    (snd (set_length st (var_blk y) d) = MBufferError \/ snd (set_length st (var_blk y) d) = MDone)).
  { intros y d Y MU L. rewrite <- (locked_pins _ _ _ _ _ _ E Y MU). unfold set_length. replace (Nat.eqb _ _) with false by lia.
    destruct (locked st (var_blk y)); cbn [snd]; split; auto; split; congruence. }
  destruct R as [d T N|n c T C L|n m c Rz Mx Rg C L]; cbn [mstep].
  - unfold type_of in T. destruct (nth_error (s_vars st) h) as [[b|w|dd mx r]|] eqn:Y; try discriminate. destruct (k_mut (blk st b)) eqn:MU; [|discriminate].
    apply (G (PvBlock b)); auto. cbn [var_blk]. rewrite app_length. destruct d; [contradiction|cbn [length]; lia].
  - unfold type_of in T. unfold contents in C. destruct (nth_error (s_vars st) h) as [[b|w|dd mx r]|] eqn:Y; try discriminate. destruct (k_mut (blk st b)) eqn:MU; [|discriminate].
    injection C as <-. apply (G (PvBlock b)); auto. cbn [var_blk]. rewrite firstn_length. lia.
  - unfold is_resizable in Rz. unfold max_byte_length in Mx. unfold contents in C. destruct (nth_error (s_vars st) h) as [[b|w|dd mx r]|] eqn:Y; try discriminate.
    subst r. injection Mx as ->. destruct (vk_buf _ _ (OK _ _ Y) _ _ _ eq_refl) as [_ K]. destruct (K eq_refl) as (b & -> & MU). cbn [negb].
    replace ((0 <=? n) && (n <=? m)) with true by lia. cbn [negb]. injection C as <-. apply (G (PvBuffer (BdBlock b) m true)); auto. cbn [var_blk].
    rewrite firstn_length in L. destruct (Nat.ltb _ _) eqn:Q; [rewrite app_length, zeros_length; lia|]. rewrite firstn_length. lia.
Qed.
Print Assumptions C80_pinned.

(** ** Buffers of fixed length *)
Lemma own_sizers p ops st tr v a b mx u y : mrun p ms_start ops = (st, tr) -> made tr v (MBuffer a) -> made_from (MBuffer a) = None ->
  nth_error (s_vars st) v = Some (PvBuffer (BdBlock b) mx false) -> nth_error (s_vars st) u = Some y -> var_blk y = b ->
  (y = PvBlock b \/ exists m, y = PvBuffer (BdBlock b) m true) -> False.
Proof.
  intros E M MF X Y B H. destruct (run_ok _ _ _ _ E) as [OK RT]. pose proof (made_root _ _ _ _ _ _ E M) as RV. rewrite MF in RV.
  assert (G : forall u y, nth_error (s_vars st) u = Some y -> var_blk y = b -> (exists o, made tr u o /\ made_from o = None) -> u = v).
  { intros u' y' Y' B' (o & Mo & MFo). pose proof (made_root _ _ _ _ _ _ E Mo) as Ru. rewrite MFo in Ru.
    assert (Q : root_of (roots tr) u' = root_of (roots tr) v) by (apply (ro_blk _ _ RT _ _ _ _ Y' X); exact B'). congruence. }
  assert (P : forall u, nth_error (s_vars st) u = Some (PvBlock b) -> False).
  { intros u' Y'. destruct (var_made _ _ _ _ u' E) as [o Mo]; [rewrite (ro_len _ _ RT); eapply lt_some; eauto|].
    destruct (var_kind _ _ _ _ _ _ _ E Mo Y') as (d & Q). assert (u' = v); [|subst; congruence]. eapply G; [exact Y'|reflexivity|]. exists o. split; [exact Mo|]. destruct Q as [-> | ->]; reflexivity. }
  destruct H as [-> |[m ->]]; [eauto|]. destruct (var_made _ _ _ _ u E) as [o Mo]; [rewrite (ro_len _ _ RT); eapply lt_some; eauto|].
  destruct (var_kind _ _ _ _ _ _ _ E Mo Y) as (a' & -> & [Q|(h & Q1 & Q2)]); [|eauto]. assert (u = v); [|subst; congruence]. eapply G; [exact Y|reflexivity|eauto].
Qed.
Lemma own_length p v a b mx ops2 : forall ops st tr st2 tr2, mrun p ms_start ops = (st, tr) -> made tr v (MBuffer a) -> made_from (MBuffer a) = None ->
  nth_error (s_vars st) v = Some (PvBuffer (BdBlock b) mx false) -> mrun p st ops2 = (st2, tr2) -> length (k_data (blk st2 b)) = length (k_data (blk st b)).
Proof.
  induction ops2 as [|o r IH]; intros ops st tr st2 tr2 E M MF X E2.
  - cbn [mrun] in E2. injection E2 as <- <-. reflexivity.
  - cbn [mrun] in E2. destruct (mstep p st o) as [st1 out] eqn:S. destruct (mrun p st1 r) as [st3 l] eqn:Q. injection E2 as <- <-.
    destruct (run_ok _ _ _ _ E) as [OK RT]. assert (E1 : mrun p ms_start (ops ++ [o]) = (st1, tr ++ [(o, out)])) by (eapply mrun_app; [exact E|cbn [mrun]; rewrite S; reflexivity]).
    rewrite (IH (ops ++ [o]) st1 (tr ++ [(o, out)]) st3 l E1); auto.
    + pose proof (vk_blk _ _ (OK _ _ X)) as Lb. cbn [var_blk] in Lb. destruct (mstep_effect _ _ _ _ _ OK S) as [out N|h x y C Xh Lt|h x d W Xh Mu D|x d m MF' B A|h y x MF' Y B]; try reflexivity.
      * rewrite blk_set by apply (vk_blk _ _ (OK _ _ Xh)). destruct (Nat.eqb b (var_blk x)) eqn:Qb; [|reflexivity]. apply Nat.eqb_eq in Qb. cbn [k_data].
        destruct D as [D|[_ D]]; [rewrite Qb; exact D|]. exfalso. eapply (own_sizers _ _ _ _ _ _ _ _ h x E M MF X Xh); [auto|]. rewrite Qb. exact D.
      * rewrite blk_app by exact Lb. reflexivity.
    + destruct M as (a0 & b0 & -> & V). exists a0, (b0 ++ [(o, out)]). rewrite <- app_assoc. auto.
    + destruct (lt_var _ _ (mstep_later _ _ _ _ _ OK S) _ _ X) as (x' & X' & L). inversion L; subst. exact X'.
Qed.
(** A buffer that is not resizable keeps its length. Missing: one that wraps a bytearray of the caller's without copying. *)
Theorem C80_fixed_partial : forall p ops st tr v a ops2 st2 tr2 c c2, mrun p ms_start ops = (st, tr) -> made tr v (MBuffer a) -> ~ wants_resizable a ->
  (forall h, made_from (MBuffer a) = Some h -> type_of st h = Some TByteArray -> wants_readonly a) ->
  mrun p st ops2 = (st2, tr2) -> contents st v = Some c -> contents st2 v = Some c2 -> length c2 = length c.
Proof.
  intros p ops st tr v a ops2 st2 tr2 c c2 E M NR H E2 C C2. destruct (run_ok _ _ _ _ E) as [OK RT]. destruct (mrun_later _ _ _ _ _ OK E2) as [OK2 LT].
  destruct (nth_error (s_vars st) v) as [x|] eqn:X; [|unfold contents in C; rewrite X in C; discriminate].
  destruct (lt_var _ _ LT _ _ X) as (x2 & X2 & L2). pose proof (contents_live _ _ _ _ _ L2 X2 C2) as ->.
  assert (RZ : is_resizable st v = false).
  { destruct (made_made_at _ _ _ _ _ _ E M) as (a0 & st0 & st1 & x0 & A). destruct (made_at_var _ _ _ _ _ _ _ _ _ A) as (x' & X' & Lx). rewrite X in X'. injection X' as <-.
    pose proof (ma_step _ _ _ _ _ _ _ _ _ A) as S. destruct (ma_run _ _ _ _ _ _ _ _ _ A) as [l R0].
    destruct (C80_new p l st0 a0 a st1 MNew R0) as [_ N]; [|exact S|].
    - intros h D. destruct (run_ok _ _ _ _ R0) as [_ Q]. rewrite (ro_len _ _ Q). clear -S D. cbn [mstep] in S. unfold new_buffer, choose_data, source_of in S. cbv zeta in S. destruct D as [D1 D2]. rewrite D1, D2 in S.
      destruct (nth_error (s_vars st0) h) eqn:Y; [eapply lt_some; eauto|]. destruct (_ && _); discriminate.
    - destruct (N eq_refl) as (k & _ & _ & _ & Rz). destruct (is_resizable st v) eqn:Q; [|reflexivity]. exfalso. apply NR. apply Rz.
      unfold is_resizable in *. rewrite X in Q. rewrite (ma_vars _ _ _ _ _ _ _ _ _ A). pose proof (ma_num _ _ _ _ _ _ _ _ _ A) as V. destruct (run_ok _ _ _ _ R0) as [_ Qr]. rewrite (ro_len _ _ Qr), nth_error_last.
      destruct Lx; auto. }
  unfold is_resizable in RZ. rewrite X in RZ. unfold contents in C, C2. rewrite X in C. rewrite X2 in C2.
  pose proof (var_kind _ _ _ _ _ _ _ E M X) as K. destruct x as [b|w|[b|w] mx r]; cbn [kind] in K.
  - destruct K as (d & [Q|Q]); discriminate.
  - contradiction.
  - subst r. injection C as <-. injection C2 as <-. rewrite !firstn_length. f_equal. destruct K as (a' & Ea & [K|(h & K1 & K2)]).
    + eapply own_length; eauto.
    + destruct (k_mut (blk st b)) eqn:MU; [|rewrite (lt_fixed _ _ LT b); [reflexivity|exact (vk_blk _ _ (OK _ _ X))|exact MU]].
      exfalso. assert (R : wants_readonly a) by (apply (H h K1); unfold type_of; rewrite K2, MU; reflexivity).
      pose proof (proj2 (writable_frozen _ _ _ _ E v _ X) (fr_buffer _ _ _ M R)) as W. cbn [writable] in W. congruence.
  - destruct (w_live w) eqn:Lw; [|discriminate]. injection C as <-. injection C2 as <-. rewrite !firstn_length.
    rewrite (mem_length _ _ (vk_view _ _ (OK _ _ X) w eq_refl) Lw), (mem_length _ _ (vk_view _ _ (OK2 _ _ X2) w eq_refl) Lw). reflexivity.
Qed.
Print Assumptions C80_fixed_partial.
