(** C80, continued: when close raises. *)
From Coq Require Import List NArith ZArith Bool Lia ZifyBool ZifyNat Wf_nat.
From Verif Require Import Base ModelArray ModelBuffer ModelOwner SpecOwner OwnerFacts OwnerFacts2 OwnerFacts3 OwnerFacts4 Prop_Owner Prop_Owner2 Prop_Owner3 Prop_Owner4 Prop_Owner5.
Import ListNotations.
Open Scope Z_scope.

(** The memoryview that a new memoryview holds. *)
Definition over (p : bool) (h : nat) (y : pyvar) : option nat :=
  match y with
  | PvView v => w_over v
  | PvBuffer (BdView v) _ _ => if p then Some h else w_over v
  | _ => None
  end.
Definition over_from (p : bool) (h : nat) (y x : pyvar) : Prop :=
  match any_view x with Some w => w_over w = over p h y /\ w_live w = true /\ (forall v, any_view y = Some v -> w_live v = true) | None => any_view y = None end.
Lemma buffer_view_over p st h d mx r w x : buffer_view p st h d mx = Some w -> (any_view x = Some w \/ any_view x = Some (ro_view w)) -> over_from p h (PvBuffer d mx r) x.
Proof.
  intros B H. unfold over_from, buffer_view in *. destruct d as [b|v].
  - injection B as <-. destruct H as [-> | ->]; cbn [over ro_view w_over w_live any_view]; (split; [reflexivity|]; split; [reflexivity|]; discriminate).
  - destruct (w_live v) eqn:L; [|discriminate]. injection B as <-. destruct H as [-> | ->]; cbn [over ro_view w_over w_live any_view]; (split; [reflexivity|]; split; [reflexivity|]; congruence).
Qed.
Lemma made_over p st o st' x : mstep p st o = (st', MNew) -> s_vars st' = s_vars st ++ [x] ->
  match made_from o with Some h => exists y, nth_error (s_vars st) h = Some y /\ over_from p h y x | None => any_view x = None end.
Proof.
  intros S VS. pose proof (new_only _ _ _ _ S) as NO.
  destruct o as [o1|o1|o1|o1 o2 o3|o1|o1|o1 o2 o3|o1 o2|o1 o2|a1|o1 o2|o1|o1]; try contradiction; cbn [mstep] in S.
  - injection S as <-. cbn [s_vars] in VS. apply app_inv_head in VS. injection VS as <-. reflexivity.
  - injection S as <-. cbn [s_vars] in VS. apply app_inv_head in VS. injection VS as <-. reflexivity.
  - cbn [made_from]. destruct (source_shape p st o1) as [(e & So)|(y & Y & So)]; [rewrite So in S; discriminate|]. exists y. split; [exact Y|].
    destruct (source_of p st o1) as [b|w|e|w]; [| |contradiction|]; injection S as <-; cbn [s_vars] in VS; apply app_inv_head in VS; injection VS as <-.
    + subst y. unfold over_from. cbn. split; [reflexivity|]. split; [reflexivity|discriminate].
    + destruct So as [-> L]. unfold over_from. cbn [any_view over]. split; [reflexivity|]. split; [exact L|congruence].
    + destruct So as (d & mx & r & -> & -> & B). eapply buffer_view_over; [exact B|auto].
  - cbn [made_from]. destruct (nth_error (s_vars st) o1) as [[b|w|d mx r]|] eqn:Y; try discriminate. destruct (w_live w) eqn:L; [|discriminate]. injection S as <-.
    cbn [s_vars] in VS. apply app_inv_head in VS. injection VS as <-. eexists. split; [reflexivity|]. unfold over_from. cbn [any_view over w_over w_live]. split; [reflexivity|]. split; [reflexivity|congruence].
  - cbn [made_from]. destruct (nth_error (s_vars st) o1) as [[b|w|d mx r]|] eqn:Y; try discriminate. destruct (w_live w) eqn:L; [|discriminate]. injection S as <-.
    cbn [s_vars] in VS. apply app_inv_head in VS. injection VS as <-. eexists. split; [reflexivity|]. unfold over_from. cbn [any_view over w_over w_live ro_view]. split; [reflexivity|]. split; [reflexivity|congruence].
  - unfold new_buffer in S. cbv zeta in S. destruct (_ && _); [discriminate|]. destruct (choose_data p st a1 _ _) as [[dd s1]|e] eqn:CH; [|discriminate].
    destruct (_ && _); [discriminate|]. destruct (_ <? _); [discriminate|]. injection S as <-. cbn [s_vars] in VS.
    set (ro := match na_readonly a1 with Some r => r | None => false end) in *.
    assert (G : s_vars s1 = s_vars st -> forall P : pyvar -> Prop, (forall mx r, P (PvBuffer dd mx r)) -> P x).
    { intros Es P H. rewrite Es in VS. apply app_inv_head in VS. injection VS as <-. apply H. }
    unfold choose_data in CH. cbn [made_from]. destruct (na_length a1) as [n|] eqn:EL.
    { destruct (_ && _); [discriminate|]. injection CH as <- <-. apply G; reflexivity. }
    destruct (na_data a1) as [h|] eqn:ED.
    2:{ destruct (_ && _); [discriminate|]. injection CH as <- <-. apply G; reflexivity. }
    destruct (source_shape p st h) as [(e & So)|(y & Y & So)].
    { rewrite So in CH. destruct (nth_error (s_vars st) h) as [[|? |]|]; try discriminate. destruct (_ || _); discriminate. }
    destruct (na_copy a1) as [[]|].
    + destruct (source_of p st h); [| |contradiction|]; injection CH as <- <-; apply G; reflexivity.
    + exists y. split; [exact Y|]. destruct (source_of p st h) as [b|w|e|w]; [| |contradiction|].
      * subst y. injection CH as <- <-. apply G; [reflexivity|]. intros mx r. unfold over_from. destruct (ro && _); cbn; [split; [reflexivity|split; [reflexivity|discriminate]]|reflexivity].
      * destruct So as [-> L]. injection CH as <- <-. apply G; [reflexivity|]. intros mx r. unfold over_from. destruct ro; cbn [any_view over ro_view w_over w_live]; (split; [reflexivity|]; split; [auto|congruence]).
      * destruct ro; [|discriminate]. destruct So as (d & mx' & r' & -> & _ & B). injection CH as <- <-. apply G; [reflexivity|]. intros mx r. eapply buffer_view_over; [exact B|auto].
    + destruct (source_of p st h); [| |contradiction|]; injection CH as <- <-; apply G; reflexivity.
  - cbn [made_from]. destruct (nth_error (s_vars st) o1) as [[b|w|d mx r]|] eqn:Y; try discriminate. destruct (buffer_view p st o1 d mx) as [w|] eqn:B; [|discriminate].
    injection S as <-. cbn [s_vars] in VS. apply app_inv_head in VS. injection VS as <-. eexists. split; [reflexivity|]. eapply buffer_view_over; [exact B|auto].
Qed.

(** ** A memoryview that another one holds is not released *)
Definition over_ok (st : mstate) : Prop :=
  forall v x w g, nth_error (s_vars st) v = Some x -> var_view x = Some w -> w_over w = Some g ->
  exists u mx r, nth_error (s_vars st) g = Some (PvBuffer (BdView u) mx r) /\ w_live u = true.
Lemma exported_some st v x w h : nth_error (s_vars st) v = Some x -> var_view x = Some w -> w_over w = Some h -> exported st h = true.
Proof.
  intros X V O. unfold exported. apply existsb_exists. exists w. split; [|rewrite O; apply Nat.eqb_refl].
  unfold live_views. apply in_flat_map. exists x. split; [eapply nth_error_In; eauto|]. rewrite V. left. reflexivity.
Qed.
Lemma exported_inv st h : exported st h = true -> exists v x w, nth_error (s_vars st) v = Some x /\ var_view x = Some w /\ w_over w = Some h.
Proof.
  intros H. unfold exported in H. apply existsb_exists in H as (w & I1 & E). unfold live_views in I1. apply in_flat_map in I1 as (x & Ix & I2).
  destruct (var_view x) as [w'|] eqn:V; [|contradiction]. destruct I2 as [-> |[]]. apply In_nth_error in Ix as [v X]. exists v, x, w. split; [exact X|]. split; [exact V|].
  destruct (w_over w) as [q|]; [|discriminate]. apply Nat.eqb_eq in E. congruence.
Qed.
Lemma over_ok_dead st h x y : over_ok st -> nth_error (s_vars st) h = Some x -> (forall w, var_view y = Some w -> False) ->
  (forall u mx r, x = PvBuffer (BdView u) mx r -> w_live u = true -> exported st h = false) -> over_ok (set_var st h y).
Proof.
  intros OV X D EX v z w g Z V O. cbn [set_var s_vars] in *. pose proof (lt_some _ _ _ X) as Lh.
  destruct (Nat.eq_dec v h) as [-> |Ne]; [rewrite replace_same in Z by exact Lh; injection Z as <-; destruct (D _ V)|].
  rewrite replace_other in Z by auto. destruct (OV _ _ _ _ Z V O) as (u & mx & r & G & L).
  destruct (Nat.eq_dec g h) as [-> |Ng]; [|exists u, mx, r; rewrite replace_other by auto; auto].
  rewrite X in G. injection G as ->. pose proof (EX _ _ _ eq_refl L) as N. rewrite (exported_some _ _ _ _ _ Z V O) in N. discriminate.
Qed.
Lemma over_ok_vars st st' : s_vars st' = s_vars st -> over_ok st -> over_ok st'.
Proof. intros E H. unfold over_ok. rewrite E. exact H. Qed.
Lemma over_ok_new p st o st' : st_ok st -> over_ok st -> mstep p st o = (st', MNew) -> over_ok st'.
Proof.
  intros OK OV S. destruct (new_var_ok _ _ _ _ OK S) as (x & VS & _). pose proof (made_over _ _ _ _ _ S VS) as MO. intros v z w g Z V O. rewrite VS in Z |- *.
  assert (K : forall q y, nth_error (s_vars st) q = Some y -> nth_error (s_vars st ++ [x]) q = Some y) by (intros q y Y; rewrite nth_error_app1; [exact Y|eapply lt_some; eauto]).
  apply nth_error_snoc in Z as [Z|[-> ->]].
  - destruct (OV _ _ _ _ Z V O) as (u & mx & r & G & L). exists u, mx, r. auto.
  - destruct (view_any _ _ V) as [A Lw]. destruct (made_from o) as [h|]; [|congruence]. destruct MO as (y & Y & F). unfold over_from in F. rewrite A in F. destruct F as (F1 & _ & F2).
    rewrite O in F1. destruct y as [b|u|[b|u] mx r]; cbn [over any_view] in F1, F2; try discriminate.
    + destruct (OV h _ u g Y) as (u' & mx & r & G & L); [apply any_live; auto|auto|]. exists u', mx, r. auto.
    + destruct p; [injection F1 as ->; exists u, mx, r; auto|]. destruct (OV h _ u g Y) as (u' & mx' & r' & G & L); [apply any_live; auto|auto|]. exists u', mx', r'. auto.
Qed.
Lemma mstep_over p st o st' out : st_ok st -> over_ok st -> mstep p st o = (st', out) -> over_ok st'.
Proof.
  intros OK OV S. destruct out; [eapply over_ok_new; eauto| | |].
  2:{ remember (MErr e) as out eqn:EO. destruct (mstep_effect _ _ _ _ _ OK S); try discriminate; auto. }
  2:{ remember MBufferError as out eqn:EO. destruct (mstep_effect _ _ _ _ _ OK S); try discriminate; auto. }
  destruct (closes o) as [h|] eqn:C.
  2:{ remember MDone as out eqn:EO. destruct (mstep_effect _ _ _ _ _ OK S); try discriminate; [auto|congruence|]. eapply over_ok_vars; [|exact OV]. reflexivity. }
  destruct o; try discriminate; injection C as <-; cbn [mstep] in S.
  - destruct (nth_error (s_vars st) h0) as [[b|w|d mx r]|] eqn:Y; try discriminate. injection S as <-. eapply over_ok_dead; eauto; cbn; discriminate.
  - destruct (nth_error (s_vars st) h0) as [[b|w|[b|w] mx r]|] eqn:Y; try discriminate; [injection S as <-; exact OV|].
    destruct (w_live w && exported st h0) eqn:Q; [discriminate|]. injection S as <-. eapply over_ok_dead; eauto; [cbn; discriminate|]. intros u mx' r' H L. injection H as <- _ _. rewrite L in Q. exact Q.
Qed.
Lemma mrun_over p ops : forall st st' tr, st_ok st -> over_ok st -> mrun p st ops = (st', tr) -> over_ok st'.
Proof.
  induction ops as [|o r IH]; intros st st' tr OK OV E; cbn [mrun] in E; [injection E as <- _; exact OV|].
  destruct (mstep p st o) as [st1 out] eqn:S. destruct (mrun p st1 r) as [st2 l] eqn:Q. injection E as <- _. eapply (IH st1); eauto using mstep_ok, mstep_over.
Qed.
Lemma run_over p ops st tr : mrun p ms_start ops = (st, tr) -> over_ok st.
Proof. intros E. eapply mrun_over; [exact start_ok| |exact E]. intros v x w g X. destruct v; discriminate. Qed.

(** The same at the end of the program. *)
Lemma over_later p h y y' : later_var y y' -> over p h y' = over p h y.
Proof. intros L. destruct L; reflexivity. Qed.
Lemma any_over_later x x' w' : later_var x x' -> any_view x' = Some w' -> exists w, any_view x = Some w /\ w_over w' = w_over w.
Proof. intros L A. destruct L as [x|w|w mx r]; [eauto| |]; injection A as <-; eexists; split; reflexivity. Qed.
Lemma run_made_over p ops st tr v o x : mrun p ms_start ops = (st, tr) -> made tr v o -> nth_error (s_vars st) v = Some x ->
  match made_from o with
  | Some h => exists y, nth_error (s_vars st) h = Some y /\ match any_view x with Some w => w_over w = over p h y | None => any_view y = None end
  | None => any_view x = None
  end.
Proof.
  intros E M X. destruct (made_made_at _ _ _ _ _ _ E M) as (a & st0 & st1 & x0 & A). destruct (made_at_var _ _ _ _ _ _ _ _ _ A) as (x' & X' & Lx). rewrite X in X'. injection X' as <-.
  pose proof (made_over _ _ _ _ _ (ma_step _ _ _ _ _ _ _ _ _ A) (ma_vars _ _ _ _ _ _ _ _ _ A)) as MO.
  assert (AV : any_view x = None <-> any_view x0 = None) by (destruct Lx; cbn; split; congruence).
  destruct (made_from o) as [h|]; [|tauto]. destruct MO as (y & Y & F).
  assert (Y1 : nth_error (s_vars st1) h = Some y) by (rewrite (ma_vars _ _ _ _ _ _ _ _ _ A), nth_error_app1; [exact Y|eapply lt_some; eauto]).
  destruct (lt_var _ _ (ma_later _ _ _ _ _ _ _ _ _ A) _ _ Y1) as (y' & Y' & Ly). exists y'. split; [exact Y'|]. rewrite (over_later _ _ _ _ Ly). unfold over_from in F.
  destruct (any_view x) as [w|] eqn:Q.
  - destruct (any_over_later _ _ _ Lx Q) as (w0 & A0 & ->). rewrite A0 in F. apply F.
  - rewrite (proj1 AV eq_refl) in F. destruct Ly; auto; discriminate.
Qed.
Lemma over_derived p ops st tr : mrun p ms_start ops = (st, tr) -> forall v x w g, nth_error (s_vars st) v = Some x -> any_view x = Some w -> w_over w = Some g ->
  p = true /\ (g < v)%nat /\ derived tr g v.
Proof.
  intros E v. destruct (run_ok _ _ _ _ E) as [OK RT]. induction v as [v IH] using lt_wf_ind. intros x w g X A O.
  destruct (var_made _ _ _ _ v E) as [o M]; [rewrite (ro_len _ _ RT); eapply lt_some; eauto|].
  pose proof (run_made_over _ _ _ _ _ _ _ E M X) as H. pose proof (made_root _ _ _ _ _ _ E M) as MR. destruct (made_from o) as [h|] eqn:MF; [|congruence].
  destruct H as (y & Y & F). rewrite A, O in F. destruct MR as [Lh _]. destruct y as [b|u|[b|u] mx r]; cbn [over] in F; try discriminate.
  - destruct (IH h Lh _ u g Y eq_refl (eq_sym F)) as (-> & Lg & D). split; [reflexivity|]. split; [lia|]. eapply dv_step; eauto.
  - destruct p; [injection F as ->; split; [reflexivity|]; split; [lia|]; eapply dv_step; eauto; apply dv_self|].
    destruct (IH h Lh _ u g Y eq_refl (eq_sym F)) as (Q & _). discriminate.
Qed.
Lemma derived_over p ops st tr h u mx r : mrun p ms_start ops = (st, tr) -> p = true -> nth_error (s_vars st) h = Some (PvBuffer (BdView u) mx r) ->
  forall v, derived tr h v -> v = h \/ exists x w g, nth_error (s_vars st) v = Some x /\ any_view x = Some w /\ w_over w = Some g /\ derived tr h g /\ (g < v)%nat.
Proof.
  intros E P H v D. destruct (run_ok _ _ _ _ E) as [OK RT]. induction D as [|w v o D IH M MF]; [auto|]. right.
  pose proof (made_lt _ _ _ _ _ _ E M) as Lv. rewrite (ro_len _ _ RT) in Lv. destruct (nth_error (s_vars st) v) as [x|] eqn:X; [|apply nth_error_None in X; lia].
  pose proof (run_made_over _ _ _ _ _ _ _ E M X) as Q. pose proof (made_root _ _ _ _ _ _ E M) as MR. rewrite MF in Q, MR. destruct MR as [Lw _]. destruct Q as (y & Y & F).
  assert (T : any_view y <> None /\ exists g, over p w y = Some g /\ derived tr h g /\ (g < v)%nat).
  { subst p. destruct IH as [-> |(y' & u' & g & Y' & A & O & Dg & Lg)].
    - rewrite H in Y. injection Y as <-. split; [discriminate|]. exists h. split; [reflexivity|]. split; [apply dv_self|exact Lw].
    - rewrite Y in Y'. injection Y' as <-. split; [congruence|]. destruct y as [b|q|[b|q] m' r']; try discriminate A; cbn [over]; injection A as ->.
      + exists g. split; [exact O|]. split; [exact Dg|lia].
      + exists w. split; [reflexivity|]. split; [exact D|exact Lw]. }
  destruct T as (T1 & g & T2 & T3 & T4). destruct (any_view x) as [q|] eqn:A; [|contradiction]. exists x, q, g. rewrite T2 in F. auto.
Qed.
(** close() of a buffer raises BufferError exactly on Python 3.12 and later, while it is open and wraps a memoryview that is still shown by
    something else made from the buffer; otherwise it succeeds. *)
Theorem C80_close : forall p ops st tr h, mrun p ms_start ops = (st, tr) -> type_of st h = Some TArrayBuffer ->
  (snd (mstep p st (MClose h)) = MBufferError <-> p = true /\ pins tr st h /\ exists v, v <> h /\ derived tr h v /\ contents st v <> None) /\
  (snd (mstep p st (MClose h)) = MBufferError \/ snd (mstep p st (MClose h)) = MDone).
Proof.
  intros p ops st tr h E T. destruct (run_ok _ _ _ _ E) as [OK RT]. pose proof (run_over _ _ _ _ E) as OV. unfold type_of in T.
  destruct (nth_error (s_vars st) h) as [x|] eqn:X; [|discriminate]. destruct (var_made _ _ _ _ h E) as [o M]; [rewrite (ro_len _ _ RT); eapply lt_some; eauto|].
  pose proof (var_kind _ _ _ _ _ _ _ E M X) as K. destruct x as [b|w|[b|w] mx r]; [destruct (k_mut (blk st b)); discriminate|discriminate| |]; cbn [kind] in K; cbn [mstep]; rewrite X.
  - cbn [snd]. split; [|auto]. split; [discriminate|]. intros (P & PN & v & N & D & C). subst p. exfalso.
    assert (G : forall o', made tr h o' -> o' = o) by (intros o' M'; eapply made_unique; eauto). destruct PN as [o' M' V' _|a' h' M' MF' H' _]; apply G in M'; subst o.
    + destruct K as (a & -> & _). contradiction.
    + destruct K as (a & _ & [K|(h2 & K1 & K2)]); [congruence|]. assert (h2 = h') as -> by congruence. destruct H' as [(o & Mo & Vo)|[Ro TB]].
      * pose proof (var_kind _ _ _ _ _ _ _ E Mo K2) as (d & [-> | ->]); contradiction.
      * pose proof (proj2 (writable_frozen _ _ _ _ E h _ X) (fr_buffer _ _ _ M Ro)) as W. cbn [writable] in W. unfold type_of in TB. rewrite K2, W in TB. congruence.
  - destruct (w_live w) eqn:L; cbn [andb].
    + destruct (exported st h) eqn:Q; cbn [snd].
      * split; [|auto]. split; [intros _|auto]. destruct (exported_inv _ _ Q) as (v & x & w' & Y & V & O). destruct (view_any _ _ V) as [A Lw].
        destruct (over_derived _ _ _ _ E _ _ _ _ Y A O) as (P & Lt & D). split; [exact P|]. split.
        -- destruct K as (a & h' & y & -> & MF & Y' & H). eapply pin_wrap; [exact M|exact MF| |apply (contents_some _ _ _ _ X eq_refl); exact L].
           destruct H as [(u & ->)|H]; [left|auto]. destruct (var_made _ _ _ _ h' E) as [o' M']; [rewrite (ro_len _ _ RT); eapply lt_some; eauto|]. exists o'. split; [exact M'|]. exact (var_kind _ _ _ _ _ _ _ E M' Y').
        -- exists v. split; [lia|]. split; [exact D|]. apply (contents_some _ _ _ _ Y A). exact Lw.
      * split; [|auto]. split; [discriminate|]. intros (-> & _ & v & N & D & C). exfalso. revert N D C. induction v as [v IH] using lt_wf_ind. intros N D C.
        destruct (derived_over _ _ _ _ _ _ _ _ E eq_refl X v D) as [-> |(y & u & g & Y & A & O & Dg & Lg)]; [contradiction|].
        pose proof (any_live _ _ A (proj1 (contents_some _ _ _ _ Y A) C)) as V. destruct (Nat.eq_dec g h) as [-> |Ng]; [rewrite (exported_some _ _ _ _ _ Y V O) in Q; discriminate|].
        destruct (OV _ _ _ _ Y V O) as (u' & mx' & r' & G & Lu). apply (IH g Lg Ng Dg). apply (contents_some _ _ _ _ G eq_refl). exact Lu.
    + cbn [snd]. split; [|auto]. split; [discriminate|]. intros (_ & PN & _). exfalso. assert (C : contents st h <> None) by (destruct PN; assumption). apply (contents_some _ _ _ _ X eq_refl) in C. congruence.
Qed.
Print Assumptions C80_close.
