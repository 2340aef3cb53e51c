(** Facts about ModelOwner: how one operation changes variables and memory. *)
From Coq Require Import List NArith ZArith Bool Lia ZifyBool ZifyNat.
From Verif Require Import Base ModelArray ModelBuffer ModelOwner SpecOwner.
Import ListNotations.
Open Scope Z_scope.

(** ** Lists *)
Lemma replace_length {A} n (x : A) l : length (replace_nth n x l) = length l.
Proof. revert n. induction l as [|a l IH]; intros [|n]; cbn [replace_nth length]; auto. Qed.
Lemma replace_same {A} n (x : A) l : (n < length l)%nat -> nth_error (replace_nth n x l) n = Some x.
Proof. revert n. induction l as [|a l IH]; intros [|n] L; cbn [replace_nth length nth_error] in *; try lia; auto. apply IH. lia. Qed.
Lemma replace_other {A} n m (x : A) l : n <> m -> nth_error (replace_nth n x l) m = nth_error l m.
Proof. revert n m. induction l as [|a l IH]; intros [|n] [|m] L; cbn [replace_nth nth_error]; auto; lia. Qed.
Lemma nth_replace {A} n m (x d : A) l : nth m (replace_nth n x l) d = if Nat.eqb m n && Nat.ltb n (length l) then x else nth m l d.
Proof.
  revert n m. induction l as [|a l IH]; intros [|n] [|m]; cbn [replace_nth nth length]; try reflexivity.
  - rewrite andb_false_r. reflexivity.
  - rewrite IH. cbn [Nat.eqb]. reflexivity.
Qed.
Lemma nth_error_last {A} (l : list A) x : nth_error (l ++ [x]) (length l) = Some x.
Proof. rewrite nth_error_app2, Nat.sub_diag by lia. reflexivity. Qed.
Lemma lt_some {A} (l : list A) n x : nth_error l n = Some x -> (n < length l)%nat.
Proof. intros E. apply nth_error_Some. congruence. Qed.
Lemma nth_error_snoc {A} (l : list A) x n y : nth_error (l ++ [x]) n = Some y -> nth_error l n = Some y \/ (n = length l /\ y = x).
Proof.
  intros E. destruct (Nat.lt_ge_cases n (length l)) as [L|L]; [rewrite nth_error_app1 in E by lia; auto|].
  pose proof (lt_some _ _ _ E) as Q. rewrite app_length in Q. cbn [length] in Q. assert (n = length l) as -> by lia.
  rewrite nth_error_last in E. injection E as <-. auto.
Qed.

(** ** Variables *)
Definition var_blk (x : pyvar) : nat := match x with PvBlock b | PvBuffer (BdBlock b) _ _ => b | PvView w | PvBuffer (BdView w) _ _ => w_blk w end.
Definition any_view (x : pyvar) : option mview := match x with PvView w | PvBuffer (BdView w) _ _ => Some w | _ => None end.
(** A variable that may have been released. *)
Inductive later_var : pyvar -> pyvar -> Prop :=
| lv_same x : later_var x x
| lv_view w : later_var (PvView w) (PvView (dead w))
| lv_buf w mx r : later_var (PvBuffer (BdView w) mx r) (PvBuffer (BdView (dead w)) mx r).
Lemma dead_dead w : dead (dead w) = dead w. Proof. reflexivity. Qed.
Lemma later_trans x y z : later_var x y -> later_var y z -> later_var x z.
Proof.
  intros A B. destruct A as [x|w|w mx r]; [exact B| |]; inversion B; subst;
    first [exact (lv_view w)|exact (lv_buf w mx r)].
Qed.
Lemma later_blk x y : later_var x y -> var_blk y = var_blk x.
Proof. intros []; reflexivity. Qed.
Lemma later_live x y w : later_var x y -> var_view y = Some w -> x = y.
Proof. intros []; auto; cbn [var_view dead w_live]; discriminate. Qed.

(** What the operations do: release a variable, change the memory of a variable, or make one. *)
Inductive effect (st : mstate) (o : mop) : mstate -> mout -> Prop :=
| ef_none out : out <> MNew -> effect st o st out
| ef_release h x y : closes o = Some h -> nth_error (s_vars st) h = Some x -> later_var x y -> effect st o (set_var st h y) MDone
| ef_write h x d : writes o = Some h -> nth_error (s_vars st) h = Some x -> k_mut (blk st (var_blk x)) = true ->
    (length d = length (k_data (blk st (var_blk x))) \/
      locked st (var_blk x) = false /\ (x = PvBlock (var_blk x) \/ exists mx, x = PvBuffer (BdBlock (var_blk x)) mx true)) ->
    effect st o (set_data st (var_blk x) d) MDone
(* memory of its own *)
| ef_own x d m : made_from o = None -> var_blk x = length (s_blocks st) -> any_view x = None ->
    effect st o (mkMs (s_blocks st ++ [mkBlock d m]) (s_vars st ++ [x])) MNew
(* the memory of an existing variable *)
| ef_share h y x : made_from o = Some h -> nth_error (s_vars st) h = Some y -> var_blk x = var_blk y ->
    effect st o (mkMs (s_blocks st) (s_vars st ++ [x])) MNew.

(** ** What holds of every state that a program reaches *)
Record view_ok (st : mstate) (w : mview) : Prop := {
  vo_fits : w_live w = true -> (w_off w + w_len w <= length (k_data (blk st (w_blk w))))%nat;
  vo_mut : w_ro w = false -> k_mut (blk st (w_blk w)) = true }.
Record var_ok (st : mstate) (x : pyvar) : Prop := {
  vk_blk : (var_blk x < length (s_blocks st))%nat;
  vk_view : forall w, any_view x = Some w -> view_ok st w;
  vk_buf : forall d mx r, x = PvBuffer d mx r -> 0 <= mx /\ (r = true -> exists b, d = BdBlock b /\ k_mut (blk st b) = true) }.
Definition st_ok (st : mstate) : Prop := forall v x, nth_error (s_vars st) v = Some x -> var_ok st x.

Lemma source_shape p st h : (exists e, source_of p st h = SrcErr e) \/
  exists y, nth_error (s_vars st) h = Some y /\
    match source_of p st h with
    | SrcBlock b => y = PvBlock b
    | SrcView w => y = PvView w /\ w_live w = true
    | SrcBuffer w => exists d mx r, y = PvBuffer d mx r /\ p = true /\ buffer_view p st h d mx = Some w
    | SrcErr _ => False
    end.
Proof.
  unfold source_of. destruct (nth_error (s_vars st) h) as [[b|w|d mx r]|]; [right; eexists; split; reflexivity| | |left; eauto].
  - destruct (w_live w) eqn:L; [right; eexists; split; [reflexivity|auto]|left; eauto].
  - destruct p; [|left; eauto]. destruct (buffer_view true st h d mx) as [w|] eqn:E; [|left; eauto].
    right. eexists. split; [reflexivity|]. exists d, mx, r. auto.
Qed.
Lemma buffer_view_blk p st h d mx w r : buffer_view p st h d mx = Some w -> w_blk w = var_blk (PvBuffer d mx r).
Proof. unfold buffer_view. destruct d as [b|u]; [intros E; injection E as <-; reflexivity|]. destruct (w_live u); intros E; [injection E as <-; reflexivity|discriminate]. Qed.

Lemma set_length_effect st o h x d st' out : writes o = Some h -> nth_error (s_vars st) h = Some x -> k_mut (blk st (var_blk x)) = true ->
  (x = PvBlock (var_blk x) \/ exists mx, x = PvBuffer (BdBlock (var_blk x)) mx true) ->
  set_length st (var_blk x) d = (st', out) -> effect st o st' out.
Proof.
  unfold set_length. intros W X M K. destruct (Nat.eqb _ _) eqn:E; [|destruct (locked st (var_blk x)) eqn:L]; intros F; injection F as <- <-.
  - eapply ef_write; eauto. left. lia.
  - constructor. discriminate.
  - eapply ef_write; eauto.
Qed.

Lemma choose_effect p st a copy readonly d st1 mx r : choose_data p st a copy readonly = Ok (d, st1) ->
  copy = match na_copy a with Some c => c | None => true end ->
  effect st (MBuffer a) (fst (add_var st1 (PvBuffer d mx r))) MNew.
Proof.
  unfold choose_data. intros E C. destruct (na_length a) as [n|] eqn:EL.
  - destruct (_ && _); [discriminate|]. injection E as <- <-. cbn [add_var fst add_block s_blocks s_vars].
    apply ef_own; [cbn [made_from]; rewrite EL; reflexivity|reflexivity|reflexivity].
  - destruct (na_data a) as [h|] eqn:ED.
    2:{ destruct (_ && _); [discriminate|]. injection E as <- <-. cbn [add_var fst add_block s_blocks s_vars].
        apply ef_own; [cbn [made_from]; rewrite EL, ED; reflexivity|reflexivity|reflexivity]. }
    destruct (source_shape p st h) as [(e & S)|(y & Y & S)].
    { rewrite S in E. destruct (nth_error (s_vars st) h) as [[|? |]|]; try discriminate. destruct (_ || _); discriminate. }
    destruct copy.
    { assert (E2 : Ok (BdBlock (length (s_blocks st)), add_block st (mkBlock (source_bytes st (source_of p st h)) (negb readonly))) = Ok (d, st1)).
      { destruct (source_of p st h); [exact E|exact E|contradiction|exact E]. }
      injection E2 as <- <-. cbn [add_var fst add_block s_blocks s_vars].
      apply ef_own; [cbn [made_from]; rewrite EL, ED; destruct (na_copy a) as [[]|]; [reflexivity|discriminate|reflexivity]|reflexivity|reflexivity]. }
    assert (MF : made_from (MBuffer a) = Some h).
    { cbn [made_from]. rewrite EL, ED. destruct (na_copy a) as [[]|]; [discriminate|reflexivity|discriminate]. }
    destruct (source_of p st h) as [b|w|e|w] eqn:SO; [| |contradiction|].
    + subst y. injection E as <- <-. cbn [add_var fst]. eapply ef_share; eauto. cbn [var_blk]. destruct (readonly && k_mut (blk st b)); reflexivity.
    + destruct S as [-> L]. injection E as <- <-. cbn [add_var fst]. eapply ef_share; eauto. cbn [var_blk]. destruct readonly; reflexivity.
    + destruct S as (d' & mx' & r' & -> & _ & B). destruct readonly; [|discriminate]. injection E as <- <-. cbn [add_var fst].
      eapply ef_share; eauto. exact (buffer_view_blk _ _ _ _ _ _ _ B).
Qed.
Lemma mstep_effect p st o st' out : st_ok st -> mstep p st o = (st', out) -> effect st o st' out.
Proof.
  intros OK E. destruct o as [d|d|h|h a b|h|h|h i x|h d|h n|a|h n|h|h]; cbn [mstep] in E.
  - injection E as <- <-. apply ef_own; reflexivity.
  - injection E as <- <-. apply ef_own; reflexivity.
  - destruct (source_shape p st h) as [(e & S)|(y & Y & S)].
    { rewrite S in E. injection E as <- <-. constructor. discriminate. }
    destruct (source_of p st h) as [b|w|e|w]; [| |contradiction|].
    + subst y. injection E as <- <-. eapply (ef_share st _ h); [reflexivity|exact Y|reflexivity].
    + destruct S as [-> _]. injection E as <- <-. eapply (ef_share st _ h); [reflexivity|exact Y|reflexivity].
    + destruct S as (d' & mx' & r' & -> & _ & B). injection E as <- <-. eapply (ef_share st _ h); [reflexivity|exact Y|]. exact (buffer_view_blk _ _ _ _ _ _ _ B).
  - destruct (nth_error (s_vars st) h) as [[b'|w|d mx r]|] eqn:Y; try (injection E as <- <-; constructor; discriminate).
    destruct (w_live w); injection E as <- <-; [|constructor; discriminate]. eapply (ef_share st _ h); [reflexivity|exact Y|reflexivity].
  - destruct (nth_error (s_vars st) h) as [[b'|w|d mx r]|] eqn:Y; try (injection E as <- <-; constructor; discriminate).
    destruct (w_live w); injection E as <- <-; [|constructor; discriminate]. eapply (ef_share st _ h); [reflexivity|exact Y|reflexivity].
  - destruct (nth_error (s_vars st) h) as [[b'|w|d mx r]|] eqn:Y; try (injection E as <- <-; constructor; discriminate).
    injection E as <- <-. eapply ef_release; [reflexivity|exact Y|constructor].
  - destruct (nth_error (s_vars st) h) as [[b'|w|d mx r]|] eqn:Y; try (injection E as <- <-; constructor; discriminate).
    + destruct (k_mut (blk st b')) eqn:M; cbn [negb] in E; [|injection E as <- <-; constructor; discriminate].
      destruct (Nat.ltb i _); [|injection E as <- <-; constructor; discriminate]. destruct (x <? 256)%N; injection E as <- <-; [|constructor; discriminate].
      eapply (ef_write st _ h (PvBlock b')); eauto. left. apply replace_length.
    + destruct (w_live w); cbn [negb] in E; [|injection E as <- <-; constructor; discriminate].
      destruct (w_ro w) eqn:RO; [injection E as <- <-; constructor; discriminate|].
      destruct (Nat.ltb i _); [|injection E as <- <-; constructor; discriminate]. destruct (x <? 256)%N; injection E as <- <-; [|constructor; discriminate].
      eapply (ef_write st _ h (PvView w)); eauto; [|left; apply replace_length]. exact (vo_mut _ _ (vk_view _ _ (OK _ _ Y) w eq_refl) RO).
  - destruct (nth_error (s_vars st) h) as [[b'|w|d' mx r]|] eqn:Y; try (injection E as <- <-; constructor; discriminate).
    destruct (k_mut (blk st b')) eqn:M; [|injection E as <- <-; constructor; discriminate].
    eapply (set_length_effect st _ h (PvBlock b')); eauto; reflexivity.
  - destruct (nth_error (s_vars st) h) as [[b'|w|d' mx r]|] eqn:Y; try (injection E as <- <-; constructor; discriminate).
    destruct (k_mut (blk st b')) eqn:M; [|injection E as <- <-; constructor; discriminate].
    eapply (set_length_effect st _ h (PvBlock b')); eauto; reflexivity.
  - unfold new_buffer in E. cbv zeta in E. destruct (_ && _); [injection E as <- <-; constructor; discriminate|].
    destruct (choose_data p st a _ _) as [[d st1]|e] eqn:C; [|injection E as <- <-; constructor; discriminate].
    destruct (_ && _); [injection E as <- <-; constructor; discriminate|]. destruct (_ <? _); [injection E as <- <-; constructor; discriminate|].
    pose proof (choose_effect _ _ _ _ _ _ _ (match na_max a with Some m => m | None => Z.of_nat (bd_len st1 d) end)
      match na_resizable a with Some true => true | _ => match na_max a with Some _ => true | None => false end end C eq_refl) as G.
    injection E as <- <-. exact G.
  - destruct (nth_error (s_vars st) h) as [[b'|w|d' mx r]|] eqn:Y; try (injection E as <- <-; constructor; discriminate).
    destruct r; cbn [negb] in E; [|injection E as <- <-; constructor; discriminate].
    destruct (negb _); [injection E as <- <-; constructor; discriminate|].
    destruct d' as [b|w]; [|injection E as <- <-; constructor; discriminate].
    destruct (vk_buf _ _ (OK _ _ Y) _ _ _ eq_refl) as [_ G]. destruct (G eq_refl) as (b0 & E0 & M). injection E0 as <-.
    eapply (set_length_effect st _ h (PvBuffer (BdBlock b) mx true)); [reflexivity|exact Y|exact M|right; eauto|exact E].
  - destruct (nth_error (s_vars st) h) as [[b'|w|d' mx r]|] eqn:Y; try (injection E as <- <-; constructor; discriminate).
    destruct (buffer_view p st h d' mx) as [w|] eqn:B; injection E as <- <-; [|constructor; discriminate].
    eapply (ef_share st _ h); [reflexivity|exact Y|]. exact (buffer_view_blk _ _ _ _ _ _ _ B).
  - destruct (nth_error (s_vars st) h) as [[b'|w|[b|w] mx r]|] eqn:Y; try (injection E as <- <-; constructor; discriminate).
    destruct (_ && _); injection E as <- <-; [constructor; discriminate|]. eapply ef_release; [reflexivity|exact Y|constructor].
Qed.
