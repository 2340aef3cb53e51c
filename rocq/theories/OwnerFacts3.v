(** Facts about ModelOwner: sharing of memory in programs. *)
From Coq Require Import List NArith ZArith Bool Lia ZifyBool ZifyNat.
From Verif Require Import Base ModelArray ModelBuffer ModelOwner SpecOwner OwnerFacts OwnerFacts2.
Import ListNotations.
Open Scope Z_scope.

(** ** Programs *)
Lemma mrun_split p ops : forall st st' tr a o out b, mrun p st ops = (st', tr) -> tr = a ++ (o, out) :: b ->
  exists st0 st1 l m, mrun p st l = (st0, a) /\ mstep p st0 o = (st1, out) /\ mrun p st1 m = (st', b).
Proof.
  induction ops as [|o' r IH]; intros st st' tr a o out b E T; cbn [mrun] in E.
  - injection E as <- <-. destruct a; discriminate.
  - destruct (mstep p st o') as [st1 x] eqn:S. destruct (mrun p st1 r) as [st2 l] eqn:R. injection E as <- <-.
    destruct a as [|e a]; cbn [app] in T.
    + injection T as <- <- ->. exists st, st1, [], r. auto.
    + injection T as <- T2. destruct (IH _ _ _ _ _ _ _ R T2) as (s0 & s1 & l1 & l2 & A & B & C). exists s0, s1, (o' :: l1), l2. cbn [mrun]. rewrite S, A. auto.
Qed.
Lemma mrun_app p l m : forall st st1 tr1 st2 tr2, mrun p st l = (st1, tr1) -> mrun p st1 m = (st2, tr2) -> mrun p st (l ++ m) = (st2, tr1 ++ tr2).
Proof.
  induction l as [|o r IH]; intros st st1 tr1 st2 tr2 A B; cbn [mrun app] in *.
  - injection A as <- <-. exact B.
  - destruct (mstep p st o) as [s x]. destruct (mrun p s r) as [s' t] eqn:R. injection A as <- <-. rewrite (IH _ _ _ _ _ R B). reflexivity.
Qed.

(** ** Roots *)
Lemma roots_app a b : exists l, roots (a ++ b) = roots a ++ l.
Proof.
  unfold roots. rewrite fold_left_app. generalize (fold_left add_root a []). induction b as [|[o out] b IH]; intros l; cbn [fold_left].
  - exists []. rewrite app_nil_r. reflexivity.
  - destruct (IH (add_root l (o, out))) as [l' E]. rewrite E. destruct out; cbn [add_root]; eauto. rewrite <- app_assoc. eauto.
Qed.
Lemma roots_snoc a o : roots (a ++ [(o, MNew)]) = roots a ++ [match made_from o with Some h => root_of (roots a) h | None => length (roots a) end].
Proof. unfold roots. rewrite fold_left_app. reflexivity. Qed.
Lemma root_app l m h : (h < length l)%nat -> root_of (l ++ m) h = root_of l h.
Proof. intros L. unfold root_of. apply app_nth1. exact L. Qed.
Lemma root_prefix a b h : (h < var_count a)%nat -> root_of (roots (a ++ b)) h = root_of (roots a) h.
Proof. intros L. destruct (roots_app a b) as [l ->]. apply root_app. exact L. Qed.
Lemma root_last l x : root_of (l ++ [x]) (length l) = x.
Proof. unfold root_of. rewrite app_nth2, Nat.sub_diag by lia. reflexivity. Qed.

Record root_ok (tr : list (mop * mout)) (st : mstate) : Prop := {
  ro_len : var_count tr = length (s_vars st);
  ro_lt : forall v, (v < var_count tr)%nat -> (root_of (roots tr) v < var_count tr)%nat;
  ro_blk : forall v w x y, nth_error (s_vars st) v = Some x -> nth_error (s_vars st) w = Some y ->
    (var_blk x = var_blk y <-> root_of (roots tr) v = root_of (roots tr) w) }.
Lemma roots_skip tr o out : out <> MNew -> roots (tr ++ [(o, out)]) = roots tr.
Proof. intros N. unfold roots. rewrite fold_left_app. cbn [fold_left add_root]. destruct out; congruence. Qed.
Lemma mstep_roots p st tr o st' out : st_ok st -> root_ok tr st -> mstep p st o = (st', out) -> root_ok (tr ++ [(o, out)]) st'.
Proof.
  intros OK [RL RB R] E. pose proof (mstep_effect _ _ _ _ _ OK E) as F.
  destruct F as [out N|h x y C X Lt|h x d W X M D|x d m MF B A|h y x MF Y B].
  - split; unfold var_count; rewrite roots_skip by exact N; auto.
  - split; unfold var_count; rewrite roots_skip by discriminate; auto.
    + unfold set_var. cbn [s_vars]. rewrite replace_length. exact RL.
    + assert (G : forall v z, nth_error (s_vars (set_var st h y)) v = Some z -> exists z', nth_error (s_vars st) v = Some z' /\ var_blk z' = var_blk z).
      { intros v z Z. unfold set_var in Z. cbn [s_vars] in Z. destruct (Nat.eq_dec h v) as [<-|Ne].
        - rewrite replace_same in Z by (eapply lt_some; eauto). injection Z as <-. exists x. split; [exact X|]. symmetry. apply later_blk. exact Lt.
        - rewrite replace_other in Z by exact Ne. eauto. }
      intros v w a b Ha Hb. destruct (G _ _ Ha) as (a' & A1 & A2). destruct (G _ _ Hb) as (b' & B1 & B2). rewrite <- A2, <- B2. apply R; auto.
  - split; unfold var_count; rewrite roots_skip by discriminate; auto.
  - unfold var_count in *. split; unfold var_count; rewrite roots_snoc, MF.
    + cbn [s_vars]. rewrite !app_length. cbn [length]. lia.
    + intros v L. rewrite app_length in *. cbn [length] in *. destruct (Nat.eq_dec v (length (roots tr))) as [->|Ne]; [rewrite root_last; lia|].
      rewrite root_app by lia. specialize (RB v). lia.
    + cbn [s_vars]. intros v w a b Ha Hb.
      assert (Q : forall v a, nth_error (s_vars st) v = Some a -> (var_blk a < length (s_blocks st))%nat /\ root_of (roots tr ++ [length (roots tr)]) v = root_of (roots tr) v /\ (root_of (roots tr) v < length (roots tr))%nat).
      { intros v' a' H. pose proof (lt_some _ _ _ H). split; [apply (vk_blk _ _ (OK _ _ H))|]. split; [apply root_app; lia|apply RB; lia]. }
      apply nth_error_snoc in Ha as [Ha|[-> ->]]; apply nth_error_snoc in Hb as [Hb|[-> ->]]; rewrite <- ?RL, ?root_last, ?B.
      * destruct (Q _ _ Ha) as (_ & -> & _). destruct (Q _ _ Hb) as (_ & -> & _). apply R; auto.
      * destruct (Q _ _ Ha) as (q1 & -> & q3). lia.
      * destruct (Q _ _ Hb) as (q1 & -> & q3). lia.
      * tauto.
  - unfold var_count in *. pose proof (lt_some _ _ _ Y) as LY. split; unfold var_count; rewrite roots_snoc, MF.
    + cbn [s_vars]. rewrite !app_length. cbn [length]. lia.
    + intros v L. rewrite app_length in *. cbn [length] in *. destruct (Nat.eq_dec v (length (roots tr))) as [->|Ne]; [rewrite root_last; specialize (RB h); lia|].
      rewrite root_app by lia. specialize (RB v). lia.
    + cbn [s_vars]. intros v w a b Ha Hb.
      assert (Q : forall v a r, nth_error (s_vars st) v = Some a -> root_of (roots tr ++ r) v = root_of (roots tr) v).
      { intros v' a' r H. pose proof (lt_some _ _ _ H). apply root_app. lia. }
      apply nth_error_snoc in Ha as [Ha|[-> ->]]; apply nth_error_snoc in Hb as [Hb|[-> ->]]; rewrite <- ?RL, ?root_last, ?B.
      * rewrite (Q _ _ _ Ha), (Q _ _ _ Hb). apply R; auto.
      * rewrite (Q _ _ _ Ha). apply R; auto.
      * rewrite (Q _ _ _ Hb). apply R; auto.
      * tauto.
Qed.
Lemma mrun_roots p ops : forall st tr0 st' tr, st_ok st -> root_ok tr0 st -> mrun p st ops = (st', tr) -> root_ok (tr0 ++ tr) st'.
Proof.
  induction ops as [|o r IH]; intros st tr0 st' tr OK R E; cbn [mrun] in E.
  - injection E as <- <-. rewrite app_nil_r. exact R.
  - destruct (mstep p st o) as [st1 x] eqn:S. destruct (mrun p st1 r) as [st2 l] eqn:Q. injection E as <- <-.
    replace (tr0 ++ (o, x) :: l) with ((tr0 ++ [(o, x)]) ++ l) by (rewrite <- app_assoc; reflexivity).
    eapply IH; [eapply mstep_ok; eauto|eapply mstep_roots; eauto|exact Q].
Qed.
Lemma start_roots : root_ok [] ms_start.
Proof. split; [reflexivity|cbn; lia|]. intros v w x y X. destruct v; discriminate. Qed.
Lemma run_ok p ops st tr : mrun p ms_start ops = (st, tr) -> st_ok st /\ root_ok tr st.
Proof.
  intros E. split; [exact (proj1 (mrun_later _ _ _ _ _ start_ok E))|]. exact (mrun_roots _ _ _ [] _ _ start_ok start_roots E).
Qed.

(** ** The memory of a variable *)
Lemma contents_eq st st' v x : nth_error (s_vars st) v = Some x -> nth_error (s_vars st') v = Some x ->
  k_data (blk st' (var_blk x)) = k_data (blk st (var_blk x)) -> contents st' v = contents st v.
Proof. intros A B E. unfold contents, mem. rewrite A, B. destruct x as [b|w|[b|w] mx r]; cbn [var_blk] in E; rewrite E; reflexivity. Qed.
Lemma mstep_frame p st o st' out v x : st_ok st -> mstep p st o = (st', out) -> nth_error (s_vars st) v = Some x ->
  (closes o = Some v -> out <> MDone) ->
  (forall h y, writes o = Some h -> out = MDone -> nth_error (s_vars st) h = Some y -> var_blk y <> var_blk x) ->
  nth_error (s_vars st') v = Some x /\ contents st' v = contents st v.
Proof.
  intros OK E X NC NW. pose proof (mstep_effect _ _ _ _ _ OK E) as F.
  enough (G : nth_error (s_vars st') v = Some x /\ k_data (blk st' (var_blk x)) = k_data (blk st (var_blk x))) by (split; [apply G|apply (contents_eq st st' v x); tauto]).
  destruct F as [out N|h y z C Y Lt|h y d W Y M D|y d m MF B A|h y z MF Y B].
  - auto.
  - assert (h <> v) by (intros ->; exact (NC C eq_refl)). unfold set_var. cbn [s_vars]. rewrite replace_other by assumption. auto.
  - split; [exact X|]. rewrite blk_set by apply (vk_blk _ _ (OK _ _ Y)). destruct (Nat.eqb (var_blk x) (var_blk y)) eqn:Q; [|reflexivity].
    apply Nat.eqb_eq in Q. exfalso. apply (NW h y); auto.
  - cbn [s_vars]. rewrite nth_error_app1 by (eapply lt_some; eauto). split; [exact X|]. rewrite blk_app; [reflexivity|]. apply (vk_blk _ _ (OK _ _ X)).
  - cbn [s_vars]. rewrite nth_error_app1 by (eapply lt_some; eauto). auto.
Qed.
Lemma mrun_frame p ops : forall st tr0 st' tr v x, st_ok st -> root_ok tr0 st -> mrun p st ops = (st', tr) -> nth_error (s_vars st) v = Some x ->
  (forall o, In (o, MDone) tr -> closes o <> Some v /\ forall h, writes o = Some h -> ~ same_memory (tr0 ++ tr) h v) ->
  contents st' v = contents st v.
Proof.
  induction ops as [|o r IH]; intros st tr0 st' tr v x OK R E X H; cbn [mrun] in E.
  - injection E as <- <-. reflexivity.
  - destruct (mstep p st o) as [st1 out] eqn:S. destruct (mrun p st1 r) as [st2 l] eqn:Q. injection E as <- <-.
    assert (T : tr0 ++ (o, out) :: l = (tr0 ++ [(o, out)]) ++ l) by (rewrite <- app_assoc; reflexivity).
    destruct (mstep_frame _ _ _ _ _ v x OK S X) as [X1 C1].
    + intros C Eo. subst out. destruct (H o (or_introl eq_refl)) as [H1 _]. contradiction.
    + intros h y W Eo Y Bk. subst out. destruct (H o (or_introl eq_refl)) as [_ H2]. apply (H2 h W). unfold same_memory.
      pose proof (ro_len _ _ R) as RL. pose proof (lt_some _ _ _ X). pose proof (lt_some _ _ _ Y).
      rewrite !root_prefix by lia. apply (ro_blk _ _ R _ _ _ _ Y X). exact Bk.
    + rewrite <- C1. eapply (IH st1 (tr0 ++ [(o, out)])); [eapply mstep_ok; eauto|eapply mstep_roots; eauto|exact Q|exact X1|].
      rewrite <- T. intros o' I. apply H. right. exact I.
Qed.
