(** Facts about ModelOwner: what variables made from others show. *)
From Coq Require Import List NArith ZArith Bool Lia ZifyBool ZifyNat.
From Verif Require Import Base ModelArray ModelBuffer ModelOwner SpecOwner OwnerFacts OwnerFacts2 OwnerFacts3.
Import ListNotations.
Open Scope Z_scope.

(** ** Where a variable was made *)
Record made_at (p : bool) (tr : list (mop * mout)) (st : mstate) (v : nat) (o : mop) (a : list (mop * mout)) (st0 st1 : mstate) (x : pyvar) : Prop := {
  ma_run : exists l, mrun p ms_start l = (st0, a);
  ma_ok : st_ok st0;
  ma_roots : root_ok a st0;
  ma_step : mstep p st0 o = (st1, MNew);
  ma_vars : s_vars st1 = s_vars st0 ++ [x];
  ma_num : v = length (s_vars st0);
  ma_var : var_ok st1 x;
  ma_ok1 : st_ok st1;
  ma_later : later st1 st;
  ma_trace : exists b, tr = a ++ (o, MNew) :: b }.
Lemma made_made_at p ops st tr v o : mrun p ms_start ops = (st, tr) -> made tr v o -> exists a st0 st1 x, made_at p tr st v o a st0 st1 x.
Proof.
  intros E (a & b & T & V). destruct (mrun_split _ _ _ _ _ _ _ _ _ E T) as (st0 & st1 & l & m & R0 & S & R1).
  destruct (run_ok _ _ _ _ R0) as [O0 Q0]. destruct (new_var_ok _ _ _ _ O0 S) as (x & Vx & Ox). pose proof (mstep_ok _ _ _ _ _ O0 S) as O1.
  exists a, st0, st1, x. split; auto; [eauto| |exact (proj2 (mrun_later _ _ _ _ _ O1 R1))|eauto].
  rewrite V. exact (ro_len _ _ Q0).
Qed.
Lemma made_at_var p tr st v o a st0 st1 x : made_at p tr st v o a st0 st1 x -> exists x', nth_error (s_vars st) v = Some x' /\ later_var x x'.
Proof.
  intros M. apply (lt_var _ _ (ma_later _ _ _ _ _ _ _ _ _ M)). rewrite (ma_vars _ _ _ _ _ _ _ _ _ M), (ma_num _ _ _ _ _ _ _ _ _ M). apply nth_error_last.
Qed.
Lemma every_made p ops : forall st0 tr0 st tr v, mrun p st0 ops = (st, tr) -> (var_count tr0 <= v < var_count (tr0 ++ tr))%nat ->
  exists o a b, tr = a ++ (o, MNew) :: b /\ v = var_count (tr0 ++ a).
Proof.
  induction ops as [|o r IH]; intros st0 tr0 st tr v E L; cbn [mrun] in E.
  - injection E as <- <-. rewrite app_nil_r in L. lia.
  - destruct (mstep p st0 o) as [st1 out] eqn:S. destruct (mrun p st1 r) as [st2 l] eqn:Q. injection E as <- <-.
    replace (tr0 ++ (o, out) :: l) with ((tr0 ++ [(o, out)]) ++ l) in L by (rewrite <- app_assoc; reflexivity).
    destruct (Nat.le_gt_cases (var_count (tr0 ++ [(o, out)])) v) as [G|G].
    + destruct (IH _ _ _ _ _ Q (conj G (proj2 L))) as (o' & a & b & -> & V). exists o', ((o, out) :: a), b. split; [reflexivity|].
      rewrite V, <- app_assoc. reflexivity.
    + exists o, [], l. rewrite app_nil_r. unfold var_count in *. destruct out; try (rewrite roots_skip in G by discriminate; lia).
      rewrite roots_snoc, app_length in G. cbn [length] in G. split; [reflexivity|lia].
Qed.
Lemma var_made p ops st tr v : mrun p ms_start ops = (st, tr) -> (v < var_count tr)%nat -> exists o, made tr v o.
Proof.
  intros E L. destruct (every_made _ _ _ [] _ _ v E) as (o & a & b & T & V); [split; [apply Nat.le_0_l|exact L]|]. exists o, a, b. auto.
Qed.
Lemma made_lt p ops st tr v o : mrun p ms_start ops = (st, tr) -> made tr v o -> (v < var_count tr)%nat.
Proof.
  intros E (a & b & -> & ->). unfold var_count. replace (a ++ (o, MNew) :: b) with ((a ++ [(o, MNew)]) ++ b) by (rewrite <- app_assoc; reflexivity).
  destruct (roots_app (a ++ [(o, MNew)]) b) as [l ->]. rewrite roots_snoc, !app_length. cbn [length]. lia.
Qed.
Lemma made_root p ops st tr v o : mrun p ms_start ops = (st, tr) -> made tr v o ->
  match made_from o with
  | Some h => (h < v)%nat /\ root_of (roots tr) v = root_of (roots tr) h
  | None => root_of (roots tr) v = v
  end.
Proof.
  intros E M. destruct (made_made_at _ _ _ _ _ _ E M) as (a & st0 & st1 & x & A). destruct (ma_trace _ _ _ _ _ _ _ _ _ A) as [b ->].
  pose proof (ro_len _ _ (ma_roots _ _ _ _ _ _ _ _ _ A)) as RL. pose proof (ma_num _ _ _ _ _ _ _ _ _ A) as V. rewrite <- RL in V. unfold var_count in V.
  assert (R : root_of (roots (a ++ (o, MNew) :: b)) v = match made_from o with Some h => root_of (roots a) h | None => length (roots a) end).
  { replace (a ++ (o, MNew) :: b) with ((a ++ [(o, MNew)]) ++ b) by (rewrite <- app_assoc; reflexivity).
    rewrite root_prefix; [|unfold var_count; rewrite roots_snoc, app_length; cbn [length]; lia]. rewrite roots_snoc, V. apply root_last. }
  pose proof (mstep_effect _ _ _ _ _ (ma_ok _ _ _ _ _ _ _ _ _ A) (ma_step _ _ _ _ _ _ _ _ _ A)) as F.
  destruct (made_from o) as [h|] eqn:MF; [|rewrite R; auto].
  remember MNew as out eqn:Eo. destruct F as [out N| | |y d m MF' B An|h' y z MF' Y B]; try discriminate; [contradiction|congruence|].
  assert (h' = h) as -> by congruence. pose proof (lt_some _ _ _ Y). unfold var_count in RL. split; [lia|]. rewrite R. rewrite root_prefix by (unfold var_count; lia). reflexivity.
Qed.
(** A variable with memory of its own has the same memory as what is derived from it, and nothing else. *)
Lemma derived_root p ops st tr v o : mrun p ms_start ops = (st, tr) -> made tr v o -> made_from o = None ->
  forall w, (w < var_count tr)%nat -> (derived tr v w <-> root_of (roots tr) w = v).
Proof.
  intros E M MF w L. pose proof (made_root _ _ _ _ _ _ E M) as R. rewrite MF in R. split.
  - induction 1 as [|w x o' D IH Mx Fx]; [exact R|]. pose proof (made_root _ _ _ _ _ _ E Mx) as Rx. rewrite Fx in Rx. destruct Rx as [L1 ->]. apply IH. lia.
  - revert w L. induction w as [w IH] using lt_wf_ind. intros L Rw. destruct (var_made _ _ _ _ _ E L) as [o' Mw].
    pose proof (made_root _ _ _ _ _ _ E Mw) as Q. destruct (made_from o') as [h|] eqn:F; [|rewrite Q in Rw; subst w; constructor].
    destruct Q as [L1 Q]. eapply dv_step; [|exact Mw|exact F]. apply IH; lia.
Qed.

(** ** What is shown *)
Lemma skip_skip {A} x y (l : list A) : skipn x (skipn y l) = skipn (y + x) l.
Proof. revert y. induction l as [|a l IH]; intros [|y]; cbn [skipn plus]; rewrite ?skipn_nil; auto. Qed.
Lemma mem_all st w : w_off w = 0%nat -> w_len w = length (k_data (blk st (w_blk w))) -> mem st w = k_data (blk st (w_blk w)).
Proof. intros A B. unfold mem, slice. rewrite A, B. cbn [skipn]. apply firstn_all. Qed.
Lemma firstn_min {A} n (l : list A) : firstn (Nat.min n (length l)) l = firstn n l.
Proof. rewrite <- firstn_firstn, firstn_all. reflexivity. Qed.
(** The source of a new variable, read later. *)
Lemma source_shows p st0 st h y c : st_ok st0 -> nth_error (s_vars st0) h = Some y -> nth_error (s_vars st) h = Some y -> contents st h = Some c ->
  length (k_data (blk st (var_blk y))) = length (k_data (blk st0 (var_blk y))) ->
  match source_of p st0 h with
  | SrcBlock b => k_data (blk st b) = c /\ mem st (whole st0 b) = c /\ mem st (ro_view (whole st0 b)) = c
  | SrcView w | SrcBuffer w => mem st w = c /\ mem st (ro_view w) = c
  | SrcErr _ => True
  end.
Proof.
  intros OK Y Y' C L. unfold source_of, contents in *. rewrite Y. rewrite Y' in C. destruct y as [b|w|d mx r].
  - injection C as <-. cbn [var_blk] in L. split; [reflexivity|]. split; apply mem_all; auto.
  - destruct (w_live w); [|discriminate]. injection C as <-. auto.
  - destruct p; [|exact I]. unfold buffer_view. destruct d as [b|u].
    + injection C as <-. cbn [var_blk] in L. unfold mem, slice, ro_view. cbn [w_blk w_off w_len skipn]. rewrite <- L, firstn_min. auto.
    + destruct (w_live u); [|discriminate]. injection C as <-. unfold mem, slice, ro_view. cbn [w_blk w_off w_len]. rewrite firstn_firstn. auto.
Qed.
Lemma buffer_view_shows p st0 st h d mx r c w : st_ok st0 -> nth_error (s_vars st0) h = Some (PvBuffer d mx r) -> nth_error (s_vars st) h = Some (PvBuffer d mx r) ->
  contents st h = Some c -> length (k_data (blk st (var_blk (PvBuffer d mx r)))) = length (k_data (blk st0 (var_blk (PvBuffer d mx r)))) ->
  buffer_view p st0 h d mx = Some w -> mem st w = c.
Proof.
  intros OK Y Y' C L B. unfold contents in C. rewrite Y' in C. unfold buffer_view in B. destruct d as [b|u].
  - injection B as <-. injection C as <-. cbn [var_blk] in L. unfold mem, slice. cbn [w_blk w_off w_len skipn]. rewrite <- L, firstn_min. auto.
  - destruct (w_live u); [|discriminate]. injection B as <-. injection C as <-. unfold mem, slice. cbn [w_blk w_off w_len]. rewrite firstn_firstn. auto.
Qed.
Lemma slice_part st0 (w : mview) a b k : let a' := Nat.min a (w_len w) in let b' := Nat.min b (w_len w) in
  (w_off w + w_len w <= length (k_data (blk st0 (w_blk w))))%nat ->
  mem st0 (mkMview (w_blk w) (w_off w + a') (b' - a') (w_ro w) true k) = firstn (b - a) (skipn a (mem st0 w)).
Proof.
  cbv zeta. intros L. unfold mem, slice. cbn [w_blk w_off w_len]. set (d := k_data (blk st0 (w_blk w))) in *.
  rewrite <- (skip_skip _ (w_off w)). set (e := skipn (w_off w) d).
  assert (Le : (w_len w <= length e)%nat) by (unfold e; rewrite skipn_length; lia).
  rewrite skipn_firstn_comm, firstn_firstn. destruct (Nat.le_gt_cases a (w_len w)) as [G|G].
  - rewrite (Nat.min_l a) by lia. f_equal. lia.
  - rewrite (Nat.min_r a) by lia. replace (Nat.min b (w_len w) - w_len w)%nat with 0%nat by lia.
    replace (Nat.min (b - a) (w_len w - a)) with 0%nat by lia. reflexivity.
Qed.
