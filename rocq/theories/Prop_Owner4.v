(** C80, continued: readonly buffers, and memory that may not change its size. *)
From Coq Require Import List NArith ZArith Bool Lia ZifyBool ZifyNat.
From Verif Require Import Base ModelArray ModelBuffer ModelOwner SpecOwner OwnerFacts OwnerFacts2 OwnerFacts3 OwnerFacts4 Prop_Owner Prop_Owner2 Prop_Owner3.
Import ListNotations.
Open Scope Z_scope.

(** Only these operations make variables. *)
Lemma new_only p st o st' : mstep p st o = (st', MNew) ->
  match o with MRelease _ | MSetByte _ _ _ | MExtend _ _ | MTruncate _ _ | MResize _ _ | MClose _ => False | _ => True end.
Proof.
  intros S. destruct o as [o1|o1|o1|o1 o2 o3|o1|o1|o1 o2 o3|o1 o2|o1 o2|a1|o1 o2|o1|o1]; try exact I; cbn [mstep] in S.
  - destruct (nth_error (s_vars st) o1) as [[b|w|d mx r]|]; discriminate.
  - destruct (nth_error (s_vars st) o1) as [[b|w|d mx r]|]; try discriminate.
    + destruct (negb _); [discriminate|]. destruct (Nat.ltb _ _); [|discriminate]. destruct (o3 <? 256)%N; discriminate.
    + destruct (negb _); [discriminate|]. destruct (w_ro w); [discriminate|]. destruct (Nat.ltb _ _); [|discriminate]. destruct (o3 <? 256)%N; discriminate.
  - destruct (nth_error (s_vars st) o1) as [[b|w|d' mx r]|]; try discriminate. destruct (k_mut _); [|discriminate]. unfold set_length in S.
    destruct (Nat.eqb _ _); [discriminate|]. destruct (locked _ _); discriminate.
  - destruct (nth_error (s_vars st) o1) as [[b|w|d' mx r]|]; try discriminate. destruct (k_mut _); [|discriminate]. unfold set_length in S.
    destruct (Nat.eqb _ _); [discriminate|]. destruct (locked _ _); discriminate.
  - destruct (nth_error (s_vars st) o1) as [[b|w|d' mx r]|]; try discriminate. destruct (negb _); [discriminate|]. destruct (negb _); [discriminate|].
    destruct d'; [|discriminate]. unfold set_length in S. destruct (Nat.eqb _ _); [discriminate|]. destruct (locked _ _); discriminate.
  - destruct (nth_error (s_vars st) o1) as [[b|w|[b|w] mx r]|]; try discriminate. destruct (_ && _); discriminate.
Qed.
Lemma made_unique p ops st tr v o o' : mrun p ms_start ops = (st, tr) -> made tr v o -> made tr v o' -> o = o'.
Proof.
  intros E (a & b & T & V) (a' & b' & T' & V'). rewrite T in T'. clear E T tr.
  assert (G : forall a a' : list (mop * mout), a ++ (o, MNew) :: b = a' ++ (o', MNew) :: b' -> (length a < length a')%nat -> (var_count a < var_count a')%nat).
  { clear. intros a a' T L. assert (exists c, a' = a ++ (o, MNew) :: c) as [c ->].
    { revert a' T L. induction a as [|e a IH]; intros [|e' a'] T L; cbn [length app] in *; try lia; injection T as T1 T2.
      - subst. eauto.
      - intros. destruct (IH a' T2) as [c ->]; [lia|]. subst. eauto. }
    unfold var_count. replace (a ++ (o, MNew) :: c) with ((a ++ [(o, MNew)]) ++ c) by (rewrite <- app_assoc; reflexivity).
    destruct (roots_app (a ++ [(o, MNew)]) c) as [l ->]. rewrite roots_snoc, !app_length. cbn [length]. lia. }
  assert (G' : forall a a' : list (mop * mout), a ++ (o, MNew) :: b = a' ++ (o', MNew) :: b' -> length a = length a' -> o = o').
  { clear. induction a as [|e a IH]; intros [|e' a'] T L; cbn [length app] in *; try lia; injection T as T1 T2; auto. apply (IH a'); auto. }
  destruct (Nat.lt_total (length a) (length a')) as [L|[L|L]].
  - pose proof (G _ _ T' L). lia.
  - exact (G' _ _ T' L).
  - exfalso. assert (var_count a' < var_count a)%nat; [|lia]. clear V V' G G'.
    assert (exists c, a = a' ++ (o', MNew) :: c) as [c ->].
    { revert a T' L. induction a' as [|e a' IH]; intros [|e' a] T L; cbn [length app] in *; try lia; injection T as T1 T2.
      - subst. eauto.
      - intros. destruct (IH a T2) as [c ->]; [lia|]. subst. eauto. }
    unfold var_count. replace (a' ++ (o', MNew) :: c) with ((a' ++ [(o', MNew)]) ++ c) by (rewrite <- app_assoc; reflexivity).
    destruct (roots_app (a' ++ [(o', MNew)]) c) as [l ->]. rewrite roots_snoc, !app_length. cbn [length]. lia.
Qed.
Lemma writable_frozen p ops st tr : mrun p ms_start ops = (st, tr) -> forall v x, nth_error (s_vars st) v = Some x -> (writable st x = false <-> frozen tr v).
Proof.
  intros E v. destruct (run_ok _ _ _ _ E) as [OK RT]. induction v as [v IH] using lt_wf_ind. intros x X.
  assert (Lv : (v < var_count tr)%nat) by (rewrite (ro_len _ _ RT); eapply lt_some; eauto).
  destruct (var_made _ _ _ _ _ E Lv) as [o M]. destruct (made_made_at _ _ _ _ _ _ E M) as (a & st0 & st1 & x0 & A).
  destruct (made_at_var _ _ _ _ _ _ _ _ _ A) as (x' & X' & Lx). rewrite X in X'. injection X' as <-.
  pose proof (ma_later _ _ _ _ _ _ _ _ _ A) as LT. rewrite (writable_later _ _ _ _ (ma_var _ _ _ _ _ _ _ _ _ A) LT Lx).
  pose proof (made_writable _ _ _ _ _ (ma_ok _ _ _ _ _ _ _ _ _ A) (ma_step _ _ _ _ _ _ _ _ _ A) (ma_vars _ _ _ _ _ _ _ _ _ A)) as W.
  pose proof (made_root _ _ _ _ _ _ E M) as MR.
  assert (INV : frozen tr v -> (exists d, o = MBytes d) \/ (exists h, o = MToReadonly h) \/ (exists a, o = MBuffer a /\ wants_readonly a) \/ exists h, made_from o = Some h /\ frozen tr h).
  { intros F. destruct F as [v d Q|v h Q|v b Q R|v o' h Q MF F]; pose proof (made_unique _ _ _ _ _ _ _ E M Q) as ->; eauto 6. }
  destruct (made_from o) as [h|] eqn:MF.
  - destruct W as (y & Y & W). destruct MR as [Lh _].
    assert (Y1 : nth_error (s_vars st1) h = Some y) by (rewrite (ma_vars _ _ _ _ _ _ _ _ _ A), nth_error_app1; [exact Y|eapply lt_some; eauto]).
    destruct (lt_var _ _ LT _ _ Y1) as (y' & Y' & Ly). pose proof (IH h Lh y' Y') as IHh.
    pose proof (mstep_later _ _ _ _ _ (ma_ok _ _ _ _ _ _ _ _ _ A) (ma_step _ _ _ _ _ _ _ _ _ A)) as L01.
    rewrite (writable_later st1 st y y' (ma_ok1 _ _ _ _ _ _ _ _ _ A _ _ Y1) LT Ly) in IHh.
    rewrite (writable_later st0 st1 y y (ma_ok _ _ _ _ _ _ _ _ _ A _ _ Y) L01 (lv_same y)) in IHh.
    rewrite W. split.
    + intros F. apply andb_false_iff in F as [F|F]; [eapply fr_from; [exact M|exact MF|apply IHh; exact F]|].
      destruct o as [o1|o1|o1|o1 o2 o3|o1|o1|o1 o2 o3|o1 o2|o1 o2|a1|o1 o2|o1|o1]; try discriminate; [eapply fr_view; exact M|eapply fr_buffer; [exact M|]].
      unfold wants_readonly. destruct (na_readonly a1) as [[]|]; auto; discriminate.
    + intros F. destruct (INV F) as [(d & ->)|[(h' & ->)|[(a1 & -> & R)|(h' & Q & F')]]].
      * discriminate.
      * apply andb_false_r.
      * unfold wants_readonly in R. rewrite R. apply andb_false_r.
      * injection Q as <-. apply IHh in F'. rewrite F'. reflexivity.
  - pose proof (new_only _ _ _ _ (ma_step _ _ _ _ _ _ _ _ _ A)) as NM.
    rewrite W. split.
    + intros F. destruct o as [o1|o1|o1|o1 o2 o3|o1|o1|o1 o2 o3|o1 o2|o1 o2|a1|o1 o2|o1|o1]; try discriminate.
      * eapply fr_bytes; exact M.
      * contradiction.
      * contradiction.
      * contradiction.
      * contradiction.
      * eapply fr_buffer; [exact M|]. unfold wants_readonly. destruct (na_readonly a1) as [[]|]; auto; discriminate.
      * contradiction.
      * contradiction.
    + intros F. destruct (INV F) as [(d & ->)|[(h' & ->)|[(a1 & -> & R)|(h' & Q & F')]]]; [reflexivity|discriminate| |discriminate].
      unfold wants_readonly in R. rewrite R. reflexivity.
Qed.

(** A byte in range can be written exactly through a variable that is not frozen: never through a readonly JSArrayBuffer or anything made of it. *)
Theorem C80_writable : forall p ops st tr v c i x, mrun p ms_start ops = (st, tr) -> contents st v = Some c -> type_of st v <> Some TArrayBuffer ->
  (i < length c)%nat -> (x < 256)%N ->
  (snd (mstep p st (MSetByte v i x)) = MDone <-> ~ frozen tr v).
Proof.
  intros p ops st tr v c i x E C T Li Lx. destruct (run_ok _ _ _ _ E) as [OK _]. unfold contents in C. unfold type_of in T.
  destruct (nth_error (s_vars st) v) as [y|] eqn:Y; [|discriminate]. pose proof (writable_frozen _ _ _ _ E v y Y) as W.
  assert (W' : writable st y = true <-> ~ frozen tr v) by (rewrite <- W; destruct (writable st y); split; congruence). rewrite <- W'.
  cbn [mstep]. rewrite Y. destruct y as [b|w|d mx r]; [| |congruence]; cbn [writable].
  - injection C as <-. destruct (k_mut (blk st b)); cbn [negb]; [|split; discriminate]. replace (Nat.ltb i (length (k_data (blk st b)))) with true by lia.
    replace (x <? 256)%N with true by lia. split; reflexivity.
  - destruct (w_live w) eqn:Lw; [|discriminate]. injection C as <-. cbn [negb]. rewrite (mem_length _ _ (vk_view _ _ (OK _ _ Y) w eq_refl) Lw) in Li.
    destruct (w_ro w); cbn [negb]; [split; discriminate|]. replace (Nat.ltb i (w_len w)) with true by lia. replace (x <? 256)%N with true by lia. split; reflexivity.
Qed.
Print Assumptions C80_writable.
(** Through a frozen variable nothing is changed at all, and readonly buffers refuse resize. *)
Theorem C80_frozen : forall p ops st tr v o, mrun p ms_start ops = (st, tr) -> frozen tr v -> writes o = Some v -> snd (mstep p st o) <> MDone.
Proof.
  intros p ops st tr v o E F W S. destruct (run_ok _ _ _ _ E) as [OK RT]. destruct (mstep p st o) as [st' out] eqn:St. cbn [snd] in S. subst out.
  pose proof (mstep_effect _ _ _ _ _ OK St) as Fx. remember MDone as out eqn:Eo. destruct o as [o1|o1|o1|o1 o2 o3|o1|o1|o1 o2 o3|o1 o2|o1 o2|a1|o1 o2|o1|o1]; cbn [writes] in W; try discriminate; injection W as ->; cbn [mstep] in St;
    destruct (nth_error (s_vars st) v) as [y|] eqn:Y; try congruence; pose proof (proj2 (writable_frozen _ _ _ _ E v y Y) F) as Q; subst out.
  - destruct y as [b|w|d mx r]; cbn [writable] in Q; try congruence; [rewrite Q in St; discriminate|]. destruct (negb (w_live w)); [discriminate|]. destruct (w_ro w); discriminate.
  - destruct y as [b|w|d mx r]; cbn [writable] in Q; try congruence. rewrite Q in St. discriminate.
  - destruct y as [b|w|d mx r]; cbn [writable] in Q; try congruence. rewrite Q in St. discriminate.
  - destruct y as [b|w|d mx r]; try congruence. destruct r; cbn [negb] in St; [|discriminate]. destruct (vk_buf _ _ (OK _ _ Y) _ _ _ eq_refl) as [_ G].
    destruct (G eq_refl) as (b & -> & M). cbn [writable] in Q. congruence.
Qed.
Print Assumptions C80_frozen.
(** A readonly JSArrayBuffer with memory of its own reads the same for ever, whatever the program does. *)
Theorem C80_constant : forall p ops st tr v a ops2 st2 tr2, mrun p ms_start ops = (st, tr) -> made tr v (MBuffer a) -> made_from (MBuffer a) = None -> wants_readonly a ->
  mrun p st ops2 = (st2, tr2) -> contents st2 v = contents st v /\ contents st v <> None.
Proof.
  intros p ops st tr v a ops2 st2 tr2 E M MF R E2. destruct (run_ok _ _ _ _ E) as [OK RT].
  destruct (made_made_at _ _ _ _ _ _ E M) as (a0 & st0 & st1 & x & A). destruct (made_at_var _ _ _ _ _ _ _ _ _ A) as (x' & X & Lx).
  assert (exists b mx r, x = PvBuffer (BdBlock b) mx r) as (b & mx & r & ->).
  { pose proof (mstep_effect _ _ _ _ _ (ma_ok _ _ _ _ _ _ _ _ _ A) (ma_step _ _ _ _ _ _ _ _ _ A)) as Fx. pose proof (ma_vars _ _ _ _ _ _ _ _ _ A) as VS.
    pose proof (ma_step _ _ _ _ _ _ _ _ _ A) as S. remember MNew as out eqn:Eo. destruct Fx as [out N| | |y d m MF' B An|h y z MF' Y B]; try discriminate; [contradiction| |congruence].
    cbn [s_vars] in VS. apply app_inv_head in VS. injection VS as <-. cbn [mstep] in S. unfold new_buffer in S. cbv zeta in S. destruct (_ && _); [discriminate|].
    destruct (choose_data p st0 a _ _) as [[dd s1]|]; [|discriminate]. destruct (_ && _); [discriminate|]. destruct (_ <? _); [discriminate|].
    injection S as S1 S2. apply (f_equal (@rev _)) in S2. rewrite !rev_app_distr in S2. cbn [rev app] in S2. injection S2 as S2 _. subst y. destruct dd as [b|w]; [eauto|discriminate An]. }
  inversion Lx; subst. destruct (mrun_later _ _ _ _ _ OK E2) as [OK2 LT]. destruct (lt_var _ _ LT _ _ X) as (x2 & X2 & L2). inversion L2; subst.
  pose proof (proj2 (writable_frozen _ _ _ _ E v _ X) (fr_buffer _ _ _ M R)) as W. cbn [writable] in W.
  split; [|unfold contents; rewrite X; discriminate]. apply (contents_eq st st2 v _ X X2). apply (lt_fixed _ _ LT); [apply (vk_blk _ _ (OK _ _ X))|exact W].
Qed.
Print Assumptions C80_constant.
