(** Facts about ModelOwner: the states that programs reach. *)
From Coq Require Import List NArith ZArith Bool Lia ZifyBool ZifyNat.
From Verif Require Import Base ModelArray ModelBuffer ModelOwner SpecOwner OwnerFacts.
Import ListNotations.
Open Scope Z_scope.

Lemma blk_app st l vs b : (b < length (s_blocks st))%nat -> blk (mkMs (s_blocks st ++ l) vs) b = blk st b.
Proof. intros L. unfold blk. cbn [s_blocks]. apply app_nth1. exact L. Qed.
Lemma blk_new st k vs : blk (mkMs (s_blocks st ++ [k]) vs) (length (s_blocks st)) = k.
Proof. unfold blk. cbn [s_blocks]. rewrite app_nth2, Nat.sub_diag by lia. reflexivity. Qed.
Lemma blk_vars l vs vs' b : blk (mkMs l vs) b = blk (mkMs l vs') b. Proof. reflexivity. Qed.
Lemma blk_set st b d c : (b < length (s_blocks st))%nat -> blk (set_data st b d) c = if Nat.eqb c b then mkBlock d (k_mut (blk st b)) else blk st c.
Proof.
  intros L. unfold blk, set_data. cbn [s_blocks]. rewrite nth_replace. destruct (Nat.eqb c b) eqn:E; [|reflexivity].
  replace (Nat.ltb b (length (s_blocks st))) with true by lia. reflexivity.
Qed.
Lemma mut_set st b d c : (b < length (s_blocks st))%nat -> k_mut (blk (set_data st b d) c) = k_mut (blk st c).
Proof. intros L. rewrite blk_set by exact L. destruct (Nat.eqb c b) eqn:E; [|reflexivity]. apply Nat.eqb_eq in E. subst. reflexivity. Qed.

Lemma live_locked st v x w : nth_error (s_vars st) v = Some x -> var_view x = Some w -> locked st (w_blk w) = true.
Proof.
  intros X V. unfold locked. apply existsb_exists. exists w. split; [|apply Nat.eqb_refl]. unfold live_views. apply in_flat_map.
  exists x. split; [eapply nth_error_In; eauto|]. rewrite V. left. reflexivity.
Qed.
Lemma locked_live st b : locked st b = true -> exists v x w, nth_error (s_vars st) v = Some x /\ var_view x = Some w /\ w_blk w = b.
Proof.
  unfold locked. intros L. apply existsb_exists in L as (w & I & E). unfold live_views in I. apply in_flat_map in I as (x & I & W).
  apply In_nth_error in I as [v X]. exists v, x, w. split; [exact X|]. destruct (var_view x) as [u|] eqn:V; [|contradiction].
  destruct W as [->|[]]. split; [reflexivity|lia].
Qed.
Lemma view_any x w : var_view x = Some w -> any_view x = Some w /\ w_live w = true.
Proof.
  destruct x as [b|u|[b|u] mx r]; cbn [var_view any_view]; try discriminate; destruct (w_live u) eqn:L; try discriminate; intros E; injection E as <-; auto.
Qed.
Lemma any_live x w : any_view x = Some w -> w_live w = true -> var_view x = Some w.
Proof. destruct x as [b|u|[b|u] mx r]; cbn [var_view any_view]; try discriminate; intros E; injection E as <-; intros ->; reflexivity. Qed.
Lemma any_blk x w : any_view x = Some w -> w_blk w = var_blk x.
Proof. destruct x as [b|u|[b|u] mx r]; cbn [var_blk any_view]; try discriminate; intros E; injection E as <-; reflexivity. Qed.

(** ** The variable that an operation makes *)
Lemma view_ok_app st l vs w : (w_blk w < length (s_blocks st))%nat -> view_ok st w -> view_ok (mkMs (s_blocks st ++ l) vs) w.
Proof. intros L [F M]. split; rewrite blk_app by exact L; auto. Qed.
Lemma var_ok_app st l vs x : var_ok st x -> var_ok (mkMs (s_blocks st ++ l) vs) x.
Proof.
  intros [B V K]. split; [cbn [s_blocks]; rewrite app_length; lia| |].
  - intros w A. apply view_ok_app; auto. rewrite (any_blk _ _ A). exact B.
  - intros d mx r E. destruct (K _ _ _ E) as [G1 G2]. split; [exact G1|]. intros R. destruct (G2 R) as (b & -> & M). exists b. split; [reflexivity|].
    rewrite blk_app; [exact M|]. subst x. exact B.
Qed.
Lemma var_ok_vars st vs x : var_ok st x -> var_ok (mkMs (s_blocks st) vs) x.
Proof. intros A. pose proof (var_ok_app st [] vs x A) as G. rewrite app_nil_r in G. exact G. Qed.
Lemma whole_ok st b : view_ok st (whole st b).
Proof. split; cbn [whole w_off w_len w_blk w_ro]; [lia|]. destruct (k_mut (blk st b)); auto. Qed.
Lemma ro_ok st w : view_ok st w -> w_live w = true -> view_ok st (ro_view w).
Proof. intros [F M] L. split; cbn [ro_view w_off w_len w_blk w_ro]; [auto|discriminate]. Qed.
Lemma buffer_view_ok p st h d mx r w : var_ok st (PvBuffer d mx r) -> buffer_view p st h d mx = Some w -> view_ok st w.
Proof.
  intros [B V K]. unfold buffer_view. destruct d as [b|u].
  - intros E. injection E as <-. split; cbn [w_off w_len w_blk w_ro]; [lia|]. destruct (k_mut (blk st b)); auto.
  - destruct (w_live u) eqn:L; [|discriminate]. intros E. injection E as <-. destruct (V u eq_refl) as [F M].
    split; cbn [w_off w_len w_blk w_ro]; [|auto]. intros _. specialize (F L). lia.
Qed.
Lemma view_var_ok st w : (w_blk w < length (s_blocks st))%nat -> view_ok st w -> var_ok st (PvView w).
Proof. intros L V. split; [exact L| |]. - cbn [any_view]. intros u E. injection E as <-. exact V. - discriminate. Qed.
Lemma source_ok p st h : st_ok st -> match source_of p st h with SrcBlock b => (b < length (s_blocks st))%nat | SrcView w | SrcBuffer w =>
  (w_blk w < length (s_blocks st))%nat /\ view_ok st w /\ w_live w = true | SrcErr _ => True end.
Proof.
  intros OK. destruct (source_shape p st h) as [(e & ->)|(y & Y & S)]; [exact I|]. pose proof (OK _ _ Y) as V.
  destruct (source_of p st h) as [b|w|e|w]; [subst y; apply (vk_blk _ _ V)| |contradiction|].
  - destruct S as [-> L]. split; [apply (vk_blk _ _ V)|]. split; [apply (vk_view _ _ V); reflexivity|exact L].
  - destruct S as (d & mx & r & -> & _ & B). rewrite (buffer_view_blk _ _ _ _ _ _ r B). split; [apply (vk_blk _ _ V)|].
    split; [eapply buffer_view_ok; eauto|]. unfold buffer_view in B. destruct d as [b|u]; [injection B as <-; reflexivity|]. destruct (w_live u); [injection B as <-; reflexivity|discriminate].
Qed.
Lemma buffer_var_ok st d mx r : (match d with BdBlock b => b | BdView w => w_blk w end < length (s_blocks st))%nat ->
  match d with BdView w => view_ok st w | _ => True end -> 0 <= mx -> (r = true -> match d with BdBlock b => k_mut (blk st b) | BdView _ => false end = true) -> var_ok st (PvBuffer d mx r).
Proof.
  intros L V M R. split; [destruct d; exact L| |].
  - intros w A. destruct d as [b|u]; [discriminate A|]. injection A as <-. exact V.
  - intros d' mx' r' E. injection E as <- <- <-. split; [exact M|]. intros X. specialize (R X). destruct d as [b|u]; [eauto|discriminate].
Qed.
Lemma new_var_ok p st o st' : st_ok st -> mstep p st o = (st', MNew) -> exists x, s_vars st' = s_vars st ++ [x] /\ var_ok st' x.
Proof.
  intros OK E. destruct o as [d|d|h|h a b|h|h|h i x|h d|h n|a|h n|h|h]; cbn [mstep] in E.
  - injection E as <-. exists (PvBlock (length (s_blocks st))). split; [reflexivity|]. split; [cbn; rewrite app_length; cbn; lia|discriminate|discriminate].
  - injection E as <-. exists (PvBlock (length (s_blocks st))). split; [reflexivity|]. split; [cbn; rewrite app_length; cbn; lia|discriminate|discriminate].
  - pose proof (source_ok p st h OK) as S. destruct (source_of p st h) as [b|w|e|w]; [| |discriminate|]; injection E as <-; eexists; (split; [reflexivity|]); apply var_ok_vars; apply view_var_ok; try apply S.
    apply whole_ok.
  - destruct (nth_error (s_vars st) h) as [[b'|w|d mx r]|] eqn:Y; try discriminate. destruct (w_live w) eqn:L; [|discriminate]. injection E as <-.
    eexists. split; [reflexivity|]. apply var_ok_vars. pose proof (OK _ _ Y) as V. apply view_var_ok; [apply (vk_blk _ _ V)|].
    destruct (vk_view _ _ V w eq_refl) as [F M]. split; cbn [w_off w_len w_blk w_ro]; [|exact M]. intros _. specialize (F L). lia.
  - destruct (nth_error (s_vars st) h) as [[b'|w|d mx r]|] eqn:Y; try discriminate. destruct (w_live w) eqn:L; [|discriminate]. injection E as <-.
    eexists. split; [reflexivity|]. apply var_ok_vars. pose proof (OK _ _ Y) as V. apply view_var_ok; [apply (vk_blk _ _ V)|].
    apply ro_ok; [|exact L]. exact (vk_view _ _ V w eq_refl).
  - destruct (nth_error (s_vars st) h) as [[b'|w|d mx r]|]; discriminate.
  - destruct (nth_error (s_vars st) h) as [[b'|w|d mx r]|]; try discriminate.
    + destruct (negb _); [discriminate|]. destruct (Nat.ltb _ _); [|discriminate]. destruct (x <? 256)%N; discriminate.
    + destruct (negb _); [discriminate|]. destruct (w_ro w); [discriminate|]. destruct (Nat.ltb _ _); [|discriminate]. destruct (x <? 256)%N; discriminate.
  - destruct (nth_error (s_vars st) h) as [[b'|w|d' mx r]|]; try discriminate. destruct (k_mut _); [|discriminate]. unfold set_length in E.
    destruct (Nat.eqb _ _); [discriminate|]. destruct (locked _ _); discriminate.
  - destruct (nth_error (s_vars st) h) as [[b'|w|d' mx r]|]; try discriminate. destruct (k_mut _); [|discriminate]. unfold set_length in E.
    destruct (Nat.eqb _ _); [discriminate|]. destruct (locked _ _); discriminate.
  - unfold new_buffer in E. cbv zeta in E. destruct (_ && _); [discriminate|].
    destruct (choose_data p st a _ _) as [[d st1]|e] eqn:C; [|discriminate].
    set (r := match na_resizable a with Some true => true | _ => match na_max a with Some _ => true | None => false end end) in E.
    set (ro := match na_readonly a with Some r => r | None => false end) in *.
    destruct (r && negb _) eqn:R; [discriminate|]. destruct (_ <? _) eqn:M; [discriminate|]. injection E as <-.
    exists (PvBuffer d match na_max a with Some m => m | None => Z.of_nat (bd_len st1 d) end r).
    assert (s_vars st1 = s_vars st /\ (match d with BdBlock b => b | BdView w => w_blk w end < length (s_blocks st1))%nat /\ match d with BdView w => view_ok st1 w | _ => True end) as (G1 & G2 & G3).
    { unfold choose_data in C. pose proof (fun h => source_ok p st h OK) as S. clear -C S. destruct (na_length a) as [n|].
      { destruct (_ && _); [discriminate|]. injection C as <- <-. split; [reflexivity|]. split; [cbn; rewrite app_length; cbn; lia|exact I]. }
      destruct (na_data a) as [h|].
      2:{ destruct (_ && _); [discriminate|]. injection C as <- <-. split; [reflexivity|]. split; [cbn; rewrite app_length; cbn; lia|exact I]. }
      specialize (S h). destruct (source_of p st h) as [b|w|e|w].
      - destruct (match na_copy a with Some c => c | None => true end); [injection C as <- <-; split; [reflexivity|]; split; [cbn; rewrite app_length; cbn; lia|exact I]|].
        injection C as <- <-. split; [reflexivity|]. destruct (_ && _); [split; [exact S|apply ro_ok; [apply whole_ok|reflexivity]]|split; [exact S|exact I]].
      - destruct (match na_copy a with Some c => c | None => true end); [injection C as <- <-; split; [reflexivity|]; split; [cbn; rewrite app_length; cbn; lia|exact I]|].
        injection C as <- <-. split; [reflexivity|]. destruct S as (S1 & S2 & S3). destruct ro; split; auto. apply ro_ok; auto.
      - destruct (nth_error (s_vars st) h) as [[|? |]|]; try discriminate. destruct (_ || _); discriminate.
      - destruct (match na_copy a with Some c => c | None => true end); [injection C as <- <-; split; [reflexivity|]; split; [cbn; rewrite app_length; cbn; lia|exact I]|].
        destruct ro; [|discriminate]. injection C as <- <-. split; [reflexivity|]. destruct S as (S1 & S2 & S3). split; auto. apply ro_ok; auto. }
    cbn [s_vars]. rewrite G1. split; [reflexivity|]. apply var_ok_vars. apply buffer_var_ok; auto.
    + destruct (na_max a); lia.
    + intros ->. cbn [andb] in R. destruct (match d with BdBlock b => _ | BdView _ => false end); [reflexivity|discriminate].
  - destruct (nth_error (s_vars st) h) as [[b'|w|d' mx r]|]; try discriminate. destruct (negb _); [discriminate|]. destruct (negb _); [discriminate|].
    destruct d'; [|discriminate]. unfold set_length in E. destruct (Nat.eqb _ _); [discriminate|]. destruct (locked _ _); discriminate.
  - destruct (nth_error (s_vars st) h) as [[b'|w|d' mx r]|] eqn:Y; try discriminate. destruct (buffer_view p st h d' mx) as [w|] eqn:B; [|discriminate].
    injection E as <-. eexists. split; [reflexivity|]. apply var_ok_vars. apply view_var_ok; [|eapply buffer_view_ok; eauto].
    rewrite (buffer_view_blk _ _ _ _ _ _ r B). apply (vk_blk _ _ (OK _ _ Y)).
  - destruct (nth_error (s_vars st) h) as [[b'|w|[b|w] mx r]|]; try discriminate. destruct (_ && _); discriminate.
Qed.

(** ** One operation keeps the others *)
Lemma mstep_ok p st o st' out : st_ok st -> mstep p st o = (st', out) -> st_ok st'.
Proof.
  intros OK E. pose proof (mstep_effect _ _ _ _ _ OK E) as F. destruct F as [out N|h x y C X Lt|h x d W X M D|x d m MF B A|h y x MF Y B].
  - exact OK.
  - intros v z Z. unfold set_var in Z. cbn [s_vars] in Z. apply (var_ok_vars st). destruct (Nat.eq_dec h v) as [<-|Ne].
    + rewrite replace_same in Z by (eapply lt_some; eauto). injection Z as <-. pose proof (OK _ _ X) as V. destruct Lt as [x|w|w mx r]; [exact V|..].
      * destruct V as [B V K]. split; [exact B| |discriminate]. intros u Eu. injection Eu as <-. destruct (V w eq_refl) as [F M]. split; [discriminate|exact M].
      * destruct V as [B V K]. split; [exact B| |]. { intros u Eu. injection Eu as <-. destruct (V w eq_refl) as [F M]. split; [discriminate|exact M]. }
        intros d' mx' r' Ed. injection Ed as <- <- <-. destruct (K _ _ _ eq_refl) as [K1 K2]. split; [exact K1|]. intros R. destruct (K2 R) as (b & Q & _). discriminate Q.
    + rewrite replace_other in Z by exact Ne. exact (OK _ _ Z).
  - intros v z Z. cbn [set_data s_vars] in Z. pose proof (OK _ _ Z) as [B V K]. pose proof (vk_blk _ _ (OK _ _ X)) as L. split.
    + cbn [set_data s_blocks]. rewrite replace_length. exact B.
    + intros w A. destruct (V w A) as [F Mu]. split; [|rewrite mut_set by exact L; exact Mu].
      intros Li. rewrite blk_set by exact L. destruct (Nat.eqb (w_blk w) (var_blk x)) eqn:Q; [|auto]. apply Nat.eqb_eq in Q. cbn [k_data].
      destruct D as [D|[D _]]; [rewrite D, <- Q; auto|]. pose proof (live_locked _ _ _ _ Z (any_live _ _ A Li)). congruence.
    + intros d' mx r Ed. destruct (K _ _ _ Ed) as [K1 K2]. split; [exact K1|]. intros R. destruct (K2 R) as (b & Q1 & Q2). exists b. rewrite mut_set by exact L. auto.
  - intros v z Z. destruct (new_var_ok _ _ _ _ OK E) as (x' & V & O). cbn [s_vars] in V, Z. apply app_inv_head in V. injection V as <-.
    apply nth_error_snoc in Z as [Z|[_ ->]]; [apply var_ok_app; exact (OK _ _ Z)|exact O].
  - intros v z Z. destruct (new_var_ok _ _ _ _ OK E) as (x' & V & O). cbn [s_vars] in V, Z. apply app_inv_head in V. injection V as <-.
    apply nth_error_snoc in Z as [Z|[_ ->]]; [apply var_ok_vars; exact (OK _ _ Z)|exact O].
Qed.

(** What later operations leave of a state. *)
Record later (st st' : mstate) : Prop := {
  lt_var : forall v x, nth_error (s_vars st) v = Some x -> exists x', nth_error (s_vars st') v = Some x' /\ later_var x x';
  lt_mut : forall b, (b < length (s_blocks st))%nat -> k_mut (blk st' b) = k_mut (blk st b) /\ (b < length (s_blocks st'))%nat;
  lt_fixed : forall b, (b < length (s_blocks st))%nat -> k_mut (blk st b) = false -> k_data (blk st' b) = k_data (blk st b);
  lt_pinned : forall v x x' w, nth_error (s_vars st) v = Some x -> nth_error (s_vars st') v = Some x' -> var_view x' = Some w ->
    length (k_data (blk st' (w_blk w))) = length (k_data (blk st (w_blk w))) }.
Lemma later_refl st : later st st.
Proof. split; [eauto using lv_same|auto|auto|auto]. Qed.
Lemma later_trans' st1 st2 st3 : st_ok st1 -> st_ok st2 -> later st1 st2 -> later st2 st3 -> later st1 st3.
Proof.
  intros O1 O2 [V1 M1 F1 P1] [V2 M2 F2 P2]. split.
  - intros v x X. destruct (V1 _ _ X) as (y & Y & L1). destruct (V2 _ _ Y) as (z & Z & L2). exists z. split; [exact Z|eapply later_trans; eauto].
  - intros b B. destruct (M1 b B) as [E1 L1]. destruct (M2 b L1) as [E2 L2]. split; [congruence|exact L2].
  - intros b B M. destruct (M1 b B) as [E1 L1]. rewrite (F2 b L1); [exact (F1 b B M)|congruence].
  - intros v x z w X Z W. destruct (V1 _ _ X) as (y & Y & L1). rewrite (P2 _ _ _ _ Y Z W).
    destruct (V2 _ _ Y) as (z' & Z' & L2). rewrite Z in Z'. injection Z' as <-. pose proof (later_live _ _ _ L2 W) as ->. exact (P1 _ _ _ _ X Y W).
Qed.
Lemma mstep_later p st o st' out : st_ok st -> mstep p st o = (st', out) -> later st st'.
Proof.
  intros OK E. pose proof (mstep_effect _ _ _ _ _ OK E) as F. destruct F as [out N|h x y C X Lt|h x d W X M D|x d m MF B A|h y x MF Y B].
  - apply later_refl.
  - split; [|auto..].
    + intros v z Z. unfold set_var. cbn [s_vars]. destruct (Nat.eq_dec h v) as [<-|Ne].
      * rewrite X in Z. injection Z as <-. exists y. split; [apply replace_same; eapply lt_some; eauto|exact Lt].
      * rewrite replace_other by exact Ne. eauto using lv_same.
  - pose proof (vk_blk _ _ (OK _ _ X)) as L. split.
    + cbn [set_data s_vars]. eauto using lv_same.
    + intros b B. rewrite mut_set by exact L. split; [reflexivity|]. cbn [set_data s_blocks]. rewrite replace_length. exact B.
    + intros b B Mf. rewrite blk_set by exact L. destruct (Nat.eqb b (var_blk x)) eqn:Q; [|reflexivity]. apply Nat.eqb_eq in Q. congruence.
    + intros v z z' w Z Z' V. cbn [set_data s_vars] in Z'. rewrite Z in Z'. injection Z' as <-. rewrite blk_set by exact L.
      destruct (Nat.eqb (w_blk w) (var_blk x)) eqn:Q; [|reflexivity]. apply Nat.eqb_eq in Q. cbn [k_data]. rewrite Q.
      destruct D as [D|[D _]]; [exact D|]. pose proof (live_locked _ _ _ _ Z V). congruence.
  - split.
    + intros v z Z. cbn [s_vars]. exists z. split; [rewrite nth_error_app1; [exact Z|eapply lt_some; eauto]|constructor].
    + intros b Lb. rewrite blk_app by exact Lb. split; [reflexivity|]. cbn [s_blocks]. rewrite app_length. lia.
    + intros b Lb _. rewrite blk_app by exact Lb. reflexivity.
    + intros v z z' w Z Z' V. cbn [s_vars] in Z'. rewrite nth_error_app1 in Z' by (eapply lt_some; eauto). rewrite Z in Z'. injection Z' as <-.
      rewrite blk_app; [reflexivity|]. rewrite (any_blk _ _ (proj1 (view_any _ _ V))). apply (vk_blk _ _ (OK _ _ Z)).
  - split; [|auto..].
    intros v z Z. cbn [s_vars]. exists z. split; [rewrite nth_error_app1; [exact Z|eapply lt_some; eauto]|constructor].
Qed.
Lemma mrun_later p ops : forall st st' tr, st_ok st -> mrun p st ops = (st', tr) -> st_ok st' /\ later st st'.
Proof.
  induction ops as [|o r IH]; intros st st' tr OK E; cbn [mrun] in E.
  - injection E as <- <-. split; [exact OK|apply later_refl].
  - destruct (mstep p st o) as [st1 x] eqn:S. destruct (mrun p st1 r) as [st2 l] eqn:R. injection E as <- <-.
    pose proof (mstep_ok _ _ _ _ _ OK S) as O1. destruct (IH _ _ _ O1 R) as [O2 L]. split; [exact O2|].
    eapply later_trans'; [exact OK|exact O1|eapply mstep_later; eauto|exact L].
Qed.
Lemma start_ok : st_ok ms_start.
Proof. intros v x X. destruct v; discriminate. Qed.
