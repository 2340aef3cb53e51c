(** C80: a JSArrayBuffer has its own memory unless it is told not to copy. *)
From Coq Require Import List NArith ZArith Bool Lia ZifyBool ZifyNat.
From Verif Require Import Base ModelArray ModelBuffer ModelOwner SpecOwner OwnerFacts OwnerFacts2 OwnerFacts3 OwnerFacts4.
Import ListNotations.
Open Scope Z_scope.

(** Later operations change what a variable reads only if one of them writes through a variable with the same memory, or
    releases the variable itself. *)
Theorem C80_isolated : forall p ops st tr ops2 st2 tr2 v, mrun p ms_start ops = (st, tr) -> mrun p st ops2 = (st2, tr2) -> (v < var_count tr)%nat ->
  (forall o, In (o, MDone) tr2 -> closes o <> Some v /\ forall h, writes o = Some h -> ~ same_memory (tr ++ tr2) h v) ->
  contents st2 v = contents st v.
Proof.
  intros p ops st tr ops2 st2 tr2 v E E2 L H. destruct (run_ok _ _ _ _ E) as [OK R]. rewrite (ro_len _ _ R) in L.
  destruct (nth_error (s_vars st) v) as [x|] eqn:X; [|apply nth_error_None in X; lia]. exact (mrun_frame _ _ _ _ _ _ _ _ OK R E2 X H).
Qed.
Print Assumptions C80_isolated.

(** Memory of its own: bytes, bytearrays and every JSArrayBuffer that copies or allocates. Nothing but what is derived from the
    variable changes it, and through what is derived from it nothing else is changed. *)
Theorem C80_own : forall p ops st tr v o ops2 st2 tr2, mrun p ms_start ops = (st, tr) -> made tr v o -> made_from o = None ->
  mrun p st ops2 = (st2, tr2) ->
  ((forall o', In (o', MDone) tr2 -> closes o' <> Some v /\ forall h, writes o' = Some h -> ~ derived (tr ++ tr2) v h) -> contents st2 v = contents st v) /\
  (forall u, (u < var_count tr)%nat -> ~ derived tr v u ->
     (forall o', In (o', MDone) tr2 -> closes o' <> Some u /\ forall h, writes o' = Some h -> derived (tr ++ tr2) v h) -> contents st2 u = contents st u).
Proof.
  intros p ops st tr v o ops2 st2 tr2 E M MF E2. pose proof (mrun_app _ _ _ _ _ _ _ _ E E2) as E3.
  assert (M3 : made (tr ++ tr2) v o). { destruct M as (a & b & -> & V). exists a, (b ++ tr2). rewrite <- app_assoc. auto. }
  pose proof (derived_root _ _ _ _ _ _ E3 M3 MF) as D3. pose proof (made_lt _ _ _ _ _ _ E M) as Lv.
  pose proof (made_root _ _ _ _ _ _ E3 M3) as R3. rewrite MF in R3.
  assert (W : forall o' h, In (o', MDone) tr2 -> writes o' = Some h -> (h < var_count (tr ++ tr2))%nat).
  { intros o' h I Hw. apply in_split in I as (a & b & Etr). destruct (mrun_split _ _ _ _ _ _ _ _ _ E2 Etr) as (s0 & s1 & l & m & Q0 & Q1 & Q2).
    pose proof (mrun_app _ _ _ _ _ _ _ _ E Q0) as Q3. destruct (run_ok _ _ _ _ Q3) as [O0 Rt].
    pose proof (mstep_effect _ _ _ _ _ O0 Q1) as F. assert (H : (h < length (s_vars s0))%nat).
    { destruct o'; cbn [writes] in Hw; try discriminate; injection Hw as ->; cbn [mstep] in Q1;
        destruct (nth_error (s_vars s0) h) eqn:X; try discriminate; eapply lt_some; eauto. }
    rewrite <- (ro_len _ _ Rt) in H. unfold var_count in *. subst tr2. rewrite app_assoc. destruct (roots_app (tr ++ a) ((o', MDone) :: b)) as [k ->].
    rewrite app_length. lia. }
  split.
  - intros H. eapply C80_isolated; eauto. intros o' I. destruct (H o' I) as [H1 H2]. split; [exact H1|]. intros h Hw S. apply (H2 h Hw).
    apply D3; [eauto|]. unfold same_memory in S. congruence.
  - intros u Lu Nu H. eapply C80_isolated; eauto. intros o' I. destruct (H o' I) as [H1 H2]. split; [exact H1|]. intros h Hw S. unfold same_memory in S.
    apply Nu. apply (derived_root _ _ _ _ _ _ E M MF u Lu). specialize (H2 h Hw). apply D3 in H2; [|eauto]. rewrite H2, root_prefix in S by exact Lu. auto.
Qed.
Print Assumptions C80_own.

(** ** What is not copied shows the same memory, at every later time *)
(** The part of the memory [d] of its source that a new variable shows. *)
Definition shown (o : mop) (mx : option Z) (d : bytes) : bytes :=
  match o, mx with
  | MSlice _ a b, _ => firstn (b - a) (skipn a d)
  | MBuffer _, Some m => firstn (Z.to_nat m) d
  | _, _ => d
  end.
Lemma contents_live st v x x' c : later_var x x' -> nth_error (s_vars st) v = Some x' -> contents st v = Some c -> x' = x.
Proof. intros L X C. unfold contents in C. rewrite X in C. destruct L; [reflexivity|discriminate|discriminate]. Qed.
Theorem C80_shows : forall p ops st tr v o h c d, mrun p ms_start ops = (st, tr) -> made tr v o -> made_from o = Some h ->
  contents st v = Some c -> contents st h = Some d -> c = shown o (max_byte_length st v) d.
Proof.
  intros p ops st tr v o h c d E M MF C D. destruct (made_made_at _ _ _ _ _ _ E M) as (a & st0 & st1 & x & A).
  pose proof (ma_ok _ _ _ _ _ _ _ _ _ A) as OK. pose proof (ma_step _ _ _ _ _ _ _ _ _ A) as S. pose proof (ma_later _ _ _ _ _ _ _ _ _ A) as LT.
  pose proof (ma_vars _ _ _ _ _ _ _ _ _ A) as VS. pose proof (ma_num _ _ _ _ _ _ _ _ _ A) as VN.
  assert (exists y, nth_error (s_vars st0) h = Some y /\ s_blocks st1 = s_blocks st0 /\ var_blk x = var_blk y) as (y & Y & SB & BK).
  { pose proof (mstep_effect _ _ _ _ _ OK S) as F. remember MNew as out eqn:Eo. destruct F as [out N| | |y d' m MF' B An|h' y z MF' Y B]; try discriminate; [contradiction|congruence|].
    assert (h' = h) as -> by congruence. cbn [s_vars] in VS. apply app_inv_head in VS. injection VS as <-. eauto. }
  assert (B1 : forall b, blk st1 b = blk st0 b) by (intros b; unfold blk; rewrite SB; reflexivity).
  assert (X1 : nth_error (s_vars st1) v = Some x) by (rewrite VS, VN; apply nth_error_last).
  assert (Y1 : nth_error (s_vars st1) h = Some y) by (rewrite VS; rewrite nth_error_app1; [exact Y|eapply lt_some; eauto]).
  destruct (lt_var _ _ LT _ _ X1) as (x' & X & Lx). destruct (lt_var _ _ LT _ _ Y1) as (y' & Y' & Ly).
  pose proof (contents_live _ _ _ _ _ Lx X C) as ->. pose proof (contents_live _ _ _ _ _ Ly Y' D) as ->.
  assert (PIN : forall w, any_view x = Some w -> length (k_data (blk st (var_blk y))) = length (k_data (blk st0 (var_blk y)))).
  { intros w Av. rewrite <- BK, <- (any_blk _ _ Av). rewrite <- B1. apply (lt_pinned _ _ LT v x x w X1 X). apply any_live; [exact Av|].
    unfold contents in C. rewrite X in C. destruct x as [b|u|[b|u] mx r]; try discriminate Av; injection Av as <-; destruct (w_live u); auto; discriminate. }
  assert (SH : (exists w, any_view x = Some w) -> match source_of p st0 h with
    | SrcBlock b => k_data (blk st b) = d /\ mem st (whole st0 b) = d /\ mem st (ro_view (whole st0 b)) = d
    | SrcView w | SrcBuffer w => mem st w = d /\ mem st (ro_view w) = d | SrcErr _ => True end).
  { intros [w Av]. exact (source_shows p _ _ _ _ _ OK Y Y' D (PIN w Av)). }
  unfold contents in C. rewrite X in C. unfold max_byte_length. rewrite X.
  destruct o as [o1|o1|o1|o1 o2 o3|o1|o1|o1 o2 o3|o1 o2|o1 o2|a1|o1 o2|o1|o1]; cbn [made_from] in MF; try discriminate; cbn [mstep] in S; cbn [shown].
  - injection MF as ->. destruct (source_shape p st0 h) as [(e & So)|(y0 & _ & So)]; [rewrite So in S; discriminate|].
    destruct (source_of p st0 h) as [b|w|e|w]; [| |contradiction|]; injection S as <-; cbn [s_vars] in VS; apply app_inv_head in VS; injection VS as <-;
      specialize (SH (ex_intro _ _ eq_refl)); cbn [w_live whole] in C.
    + injection C as <-. apply SH.
    + destruct (w_live w); [|discriminate]. injection C as <-. apply SH.
    + destruct (w_live w); [|discriminate]. injection C as <-. apply SH.
  - injection MF as ->. rewrite Y in S. destruct y as [b|w|dd mx r]; try discriminate. destruct (w_live w) eqn:Lw; [|discriminate].
    injection S as <-. cbn [s_vars] in VS. apply app_inv_head in VS. injection VS as <-. cbn [w_live] in C. injection C as <-.
    unfold contents in D. rewrite Y', Lw in D. injection D as <-. apply slice_part. cbn [var_blk] in PIN. rewrite (PIN _ eq_refl).
    exact (vo_fits _ _ (vk_view _ _ (OK _ _ Y) w eq_refl) Lw).
  - injection MF as ->. rewrite Y in S. destruct y as [b|w|dd mx r]; try discriminate. destruct (w_live w) eqn:Lw; [|discriminate].
    injection S as <-. cbn [s_vars] in VS. apply app_inv_head in VS. injection VS as <-. cbn [w_live ro_view] in C. injection C as <-.
    unfold contents in D. rewrite Y', Lw in D. injection D as <-. reflexivity.
  - unfold new_buffer in S. cbv zeta in S. destruct (_ && _); [discriminate|]. destruct (choose_data p st0 a1 _ _) as [[dd s1]|e] eqn:CH; [|discriminate].
    destruct (_ && _); [discriminate|]. destruct (_ <? _); [discriminate|]. injection S as S.
    set (mx := match na_max a1 with Some m => m | None => Z.of_nat (bd_len s1 dd) end) in *.
    set (r := match na_resizable a1 with Some true => true | _ => match na_max a1 with Some _ => true | None => false end end) in *.
    unfold choose_data in CH. destruct (na_length a1) as [n|]; [discriminate|]. destruct (na_data a1) as [h'|]; [|discriminate].
    destruct (na_copy a1) as [[]|]; try discriminate. injection MF as ->.
    destruct (source_shape p st0 h) as [(e & So)|(y0 & Y0 & So)].
    { rewrite So in CH. destruct (nth_error (s_vars st0) h) as [[|? |]|]; try discriminate. destruct (_ || _); discriminate. }
    rewrite Y in Y0. injection Y0 as <-.
    set (ro := match na_readonly a1 with Some r => r | None => false end) in *.
    assert (G : forall dd', dd = dd' -> s1 = st0 -> x = PvBuffer dd' mx r).
    { intros dd' -> ->. rewrite <- S in VS. cbn [s_vars] in VS. apply app_inv_head in VS. injection VS as <-. reflexivity. }
    destruct (source_of p st0 h) as [b|w|e|w]; [| |contradiction|].
    + subst y. injection CH as CD CS. symmetry in CD, CS. rewrite (G _ CD CS) in C, SH |- *.
      unfold contents in D. rewrite Y' in D. injection D as <-. destruct (ro && k_mut (blk st0 b)).
      * specialize (SH (ex_intro _ _ eq_refl)). cbn [w_live ro_view] in C. injection C as <-. f_equal. apply SH.
      * injection C as <-. reflexivity.
    + destruct So as [-> Lw]. injection CH as CD CS. symmetry in CD, CS. rewrite (G _ CD CS) in C, SH |- *. specialize (SH (ex_intro _ _ eq_refl)).
      destruct ro; cbn [w_live ro_view] in C; rewrite ?Lw in C; injection C as <-; f_equal; apply SH.
    + destruct ro; [|discriminate]. injection CH as CD CS. symmetry in CD, CS. rewrite (G _ CD CS) in C, SH |- *. specialize (SH (ex_intro _ _ eq_refl)).
      cbn [w_live ro_view] in C. injection C as <-. f_equal. apply SH.
  - injection MF as ->. rewrite Y in S. destruct y as [b|w|dd mx r]; try discriminate. destruct (buffer_view p st0 h dd mx) as [w|] eqn:BV; [|discriminate].
    injection S as <-. cbn [s_vars] in VS. apply app_inv_head in VS. injection VS as <-.
    destruct (w_live w); [|discriminate]. injection C as <-. exact (buffer_view_shows _ _ _ _ _ _ _ _ _ OK Y Y' D (PIN _ eq_refl) BV).
Qed.
Print Assumptions C80_shows.
