(** C80, continued: writing, readonly buffers, and memory that may not change its size. *)
From Coq Require Import List NArith ZArith Bool Lia ZifyBool ZifyNat.
From Verif Require Import Base ModelArray ModelBuffer ModelOwner SpecOwner OwnerFacts OwnerFacts2 OwnerFacts3 OwnerFacts4 Prop_Owner Prop_Owner2.
Import ListNotations.
Open Scope Z_scope.

(** ** Writing *)
Lemma replace_split {A} i (x : A) l : (i < length l)%nat -> replace_nth i x l = firstn i l ++ x :: skipn (S i) l.
Proof. revert i. induction l as [|a l IH]; intros [|i] L; cbn [replace_nth length firstn skipn app] in *; try lia; auto. rewrite IH by lia. reflexivity. Qed.
Lemma slice_replace (d : bytes) off n i x : (i < n)%nat -> (off + n <= length d)%nat ->
  slice (replace_nth (off + i) x d) off n = replace_nth i x (slice d off n).
Proof.
  intros L F. unfold slice. revert off F. induction d as [|a d IH]; intros [|off] F; cbn [length] in F; try lia.
  - cbn [skipn plus]. clear IH F. generalize (a :: d) as l. intros l. revert i n L. induction l as [|b l IH]; intros [|i] [|n] L; cbn [replace_nth firstn]; try lia; auto.
    rewrite IH by lia. reflexivity.
  - cbn [plus replace_nth skipn]. apply IH. lia.
Qed.
Lemma set_length_done st b d st' : set_length st b d = (st', MDone) -> st' = set_data st b d.
Proof. unfold set_length. destruct (Nat.eqb _ _); [intros E; injection E as <-; reflexivity|]. destruct (locked st b); intros E; [discriminate|injection E as <-; reflexivity]. Qed.
(** A write that succeeds has exactly its effect on what the variable reads. *)
Theorem C80_written : forall p ops st tr o h c st', mrun p ms_start ops = (st, tr) -> writes o = Some h -> contents st h = Some c ->
  mstep p st o = (st', MDone) -> contents st' h = Some (written o c).
Proof.
  intros p ops st tr o h c st' E W C S. destruct (run_ok _ _ _ _ E) as [OK _]. unfold contents in C.
  destruct (nth_error (s_vars st) h) as [y|] eqn:Y; [|discriminate]. pose proof (OK _ _ Y) as V. pose proof (vk_blk _ _ V) as L.
  destruct o as [o1|o1|o1|o1 o2 o3|o1|o1|o1 o2 o3|o1 o2|o1 o2|a1|o1 o2|o1|o1]; cbn [writes] in W; try discriminate; injection W as ->; cbn [mstep] in S; rewrite Y in S; cbn [written].
  - destruct y as [b|w|d mx r]; try discriminate.
    + destruct (negb _); [discriminate|]. destruct (Nat.ltb o2 _) eqn:Li; [|discriminate]. destruct (o3 <? 256)%N; [|discriminate]. injection S as <-. injection C as <-.
      unfold contents. cbn [set_data s_vars]. rewrite Y. cbn [var_blk] in L. fold (set_data st b (replace_nth o2 o3 (k_data (blk st b)))). rewrite blk_set, Nat.eqb_refl by exact L. cbn [k_data].
      rewrite replace_split by lia. reflexivity.
    + destruct (w_live w) eqn:Lw; cbn [negb] in S; [|discriminate]. destruct (w_ro w); [discriminate|]. destruct (Nat.ltb o2 _) eqn:Li; [|discriminate]. destruct (o3 <? 256)%N; [|discriminate].
      injection S as <-. injection C as <-. pose proof (vk_view _ _ V w eq_refl) as Vw. pose proof (vo_fits _ _ Vw Lw) as F.
      unfold contents. cbn [set_data s_vars]. rewrite Y, Lw. cbn [var_blk] in L.
      fold (set_data st (w_blk w) (replace_nth (w_off w + o2) o3 (k_data (blk st (w_blk w))))). unfold mem at 1. rewrite blk_set, Nat.eqb_refl by exact L. cbn [k_data].
      rewrite slice_replace by lia. fold (mem st w). rewrite replace_split by (rewrite (mem_length _ _ Vw Lw); lia). reflexivity.
  - destruct y as [b|w|d mx r]; try discriminate. destruct (k_mut (blk st b)); [|discriminate]. apply set_length_done in S as ->. injection C as <-.
    unfold contents. cbn [set_data s_vars]. rewrite Y. fold (set_data st b (k_data (blk st b) ++ o2)). rewrite blk_set, Nat.eqb_refl by exact L. reflexivity.
  - destruct y as [b|w|d mx r]; try discriminate. destruct (k_mut (blk st b)); [|discriminate]. apply set_length_done in S as ->. injection C as <-.
    unfold contents. cbn [set_data s_vars]. rewrite Y. fold (set_data st b (firstn o2 (k_data (blk st b)))). rewrite blk_set, Nat.eqb_refl by exact L. reflexivity.
  - destruct y as [b|w|d mx r]; try discriminate. destruct (negb r); [discriminate|]. destruct ((0 <=? o2) && (o2 <=? mx)) eqn:Rg; cbn [negb] in S; [|discriminate]. destruct d as [b|w]; [|discriminate].
    apply set_length_done in S as ->. injection C as <-. unfold contents. cbn [set_data s_vars]. rewrite Y. cbn [var_blk] in L.
    rewrite blk_set, Nat.eqb_refl by exact L. cbn [k_data].
    set (cur := k_data (blk st b)). f_equal. assert (Z.to_nat o2 <= Z.to_nat mx)%nat by lia. destruct (Nat.ltb (length cur) (Z.to_nat o2)) eqn:Q.
    + rewrite (firstn_all2 (n := Z.to_nat mx) cur) by lia. rewrite firstn_all2 by (rewrite app_length, zeros_length; lia). rewrite firstn_all2 by (rewrite app_length, zeros_length; lia). reflexivity.
    + rewrite firstn_firstn, Nat.min_r by lia. rewrite firstn_app, firstn_firstn, Nat.min_l by lia. rewrite firstn_length.
      replace (Z.to_nat o2 - Nat.min (Z.to_nat mx) (length cur))%nat with 0%nat by lia. cbn [firstn]. rewrite app_nil_r. reflexivity.
Qed.
Print Assumptions C80_written.

(** ** Readonly *)
Definition writable (st : mstate) (x : pyvar) : bool :=
  match x with PvBlock b | PvBuffer (BdBlock b) _ _ => k_mut (blk st b) | PvView w | PvBuffer (BdView w) _ _ => negb (w_ro w) end.
Lemma writable_later st st' x x' : var_ok st x -> later st st' -> later_var x x' -> writable st' x' = writable st x.
Proof.
  intros V L Lx. pose proof (vk_blk _ _ V) as B. destruct Lx as [x|w|w mx r]; [|reflexivity|reflexivity].
  destruct x as [b|w|[b|w] mx r]; cbn [writable]; try reflexivity; apply (lt_mut _ _ L); exact B.
Qed.
Lemma buffer_view_writable p st h d mx r w : buffer_view p st h d mx = Some w -> negb (w_ro w) = writable st (PvBuffer d mx r).
Proof.
  unfold buffer_view. destruct d as [b|u]; [intros E; injection E as <-; cbn [w_ro writable]; apply negb_involutive|].
  destruct (w_live u); intros E; [injection E as <-; reflexivity|discriminate].
Qed.
(** A new variable: whether memory can be changed through it. *)
Lemma made_writable p st o st' x : st_ok st -> mstep p st o = (st', MNew) -> s_vars st' = s_vars st ++ [x] ->
  match made_from o with
  | Some h => exists y, nth_error (s_vars st) h = Some y /\
      writable st' x = writable st y && negb (match o with MToReadonly _ => true | MBuffer a => match na_readonly a with Some r => r | None => false end | _ => false end)
  | None => writable st' x = match o with MByteArray _ => true | MBuffer a => negb match na_readonly a with Some r => r | None => false end | _ => false end
  end.
Proof.
  intros OK S VS.
  destruct o as [o1|o1|o1|o1 o2 o3|o1|o1|o1 o2 o3|o1 o2|o1 o2|a1|o1 o2|o1|o1]; cbn [mstep] in S; cbn [made_from].
  - injection S as <-. cbn [s_vars] in VS. apply app_inv_head in VS. injection VS as <-. cbn [writable add_block s_blocks s_vars]. rewrite blk_new. reflexivity.
  - injection S as <-. cbn [s_vars] in VS. apply app_inv_head in VS. injection VS as <-. cbn [writable add_block s_blocks s_vars]. rewrite blk_new. reflexivity.
  - destruct (source_shape p st o1) as [(e & So)|(y & Y & So)]; [rewrite So in S; discriminate|]. exists y. split; [exact Y|]. cbn [negb]. rewrite andb_true_r.
    destruct (source_of p st o1) as [b|w|e|w]; [| |contradiction|]; injection S as <-; cbn [s_vars] in VS; apply app_inv_head in VS; injection VS as <-; cbn [writable].
    + subst y. cbn [writable whole w_ro]. rewrite negb_involutive. reflexivity.
    + destruct So as [-> _]. reflexivity.
    + destruct So as (d & mx & r & -> & _ & B). rewrite (buffer_view_writable _ _ _ _ _ r _ B). reflexivity.
  - destruct (nth_error (s_vars st) o1) as [[b|w|d mx r]|] eqn:Y; try discriminate. destruct (w_live w); [|discriminate]. injection S as <-.
    cbn [s_vars] in VS. apply app_inv_head in VS. injection VS as <-. eexists. split; [reflexivity|]. cbn [writable w_ro negb]. rewrite andb_true_r. reflexivity.
  - destruct (nth_error (s_vars st) o1) as [[b|w|d mx r]|] eqn:Y; try discriminate. destruct (w_live w); [|discriminate]. injection S as <-.
    cbn [s_vars] in VS. apply app_inv_head in VS. injection VS as <-. eexists. split; [reflexivity|]. cbn [writable ro_view w_ro negb]. rewrite andb_false_r. reflexivity.
  - destruct (nth_error (s_vars st) o1) as [[b|w|d mx r]|]; discriminate.
  - destruct (nth_error (s_vars st) o1) as [[b|w|d mx r]|]; try discriminate.
    + destruct (negb _); [discriminate|]. destruct (Nat.ltb _ _); [|discriminate]. destruct (o3 <? 256)%N; discriminate.
    + destruct (negb _); [discriminate|]. destruct (w_ro w); [discriminate|]. destruct (Nat.ltb _ _); [|discriminate]. destruct (o3 <? 256)%N; discriminate.
  - destruct (nth_error (s_vars st) o1) as [[b|w|d' mx r]|]; try discriminate. destruct (k_mut _); [|discriminate]. unfold set_length in S.
    destruct (Nat.eqb _ _); [discriminate|]. destruct (locked _ _); discriminate.
  - destruct (nth_error (s_vars st) o1) as [[b|w|d' mx r]|]; try discriminate. destruct (k_mut _); [|discriminate]. unfold set_length in S.
    destruct (Nat.eqb _ _); [discriminate|]. destruct (locked _ _); discriminate.
  - unfold new_buffer in S. cbv zeta in S. destruct (_ && _); [discriminate|]. destruct (choose_data p st a1 _ _) as [[dd s1]|e] eqn:CH; [|discriminate].
    destruct (_ && _); [discriminate|]. destruct (_ <? _); [discriminate|]. injection S as <-. cbn [s_vars] in VS.
    set (ro := match na_readonly a1 with Some r => r | None => false end) in *.
    assert (G : s_vars s1 = s_vars st -> writable s1 x = match dd with BdBlock b => k_mut (blk s1 b) | BdView w => negb (w_ro w) end).
    { intros Es. rewrite Es in VS. apply app_inv_head in VS. injection VS as <-. destruct dd; reflexivity. }
    change (writable (mkMs (s_blocks s1) (s_vars s1 ++ [PvBuffer dd match na_max a1 with Some m => m | None => Z.of_nat (bd_len s1 dd) end
      match na_resizable a1 with Some true => true | _ => match na_max a1 with Some _ => true | None => false end end])) x) with (writable s1 x).
    unfold choose_data in CH. destruct (na_length a1) as [n|].
    { destruct (_ && _); [discriminate|]. injection CH as <- <-. rewrite G by reflexivity. unfold add_block. rewrite blk_new. reflexivity. }
    destruct (na_data a1) as [h|].
    2:{ destruct (_ && _); [discriminate|]. injection CH as <- <-. rewrite G by reflexivity. unfold add_block. rewrite blk_new. reflexivity. }
    destruct (source_shape p st h) as [(e & So)|(y & Y & So)].
    { rewrite So in CH. destruct (nth_error (s_vars st) h) as [[|? |]|]; try discriminate. destruct (_ || _); discriminate. }
    assert (CPY : forall k, Ok (BdBlock (length (s_blocks st)), add_block st (mkBlock k (negb ro))) = Ok (dd, s1) -> writable s1 x = negb ro).
    { intros k X. injection X as <- <-. rewrite G by reflexivity. unfold add_block. rewrite blk_new. reflexivity. }
    assert (NC : na_copy a1 = Some false \/ (match na_copy a1 with Some c => c | None => true end = true /\ match na_copy a1 with Some false => Some h | _ => None end = None)).
    { destruct (na_copy a1) as [[]|]; auto. }
    destruct NC as [NC|[NC1 NC2]].
    2:{ rewrite NC1 in CH. rewrite NC2. destruct (source_of p st h); [eapply CPY; exact CH|eapply CPY; exact CH|contradiction|eapply CPY; exact CH]. }
    rewrite NC in CH |- *. exists y. split; [exact Y|]. destruct (source_of p st h) as [b|w|e|w]; [| |contradiction|].
    + subst y. injection CH as <- <-. rewrite G by reflexivity. cbn [writable]. destruct ro, (k_mut (blk st b)) eqn:Mu; cbn [andb negb ro_view w_ro]; auto.
    + destruct So as [-> _]. injection CH as <- <-. rewrite G by reflexivity. cbn [writable]. destruct ro; cbn [andb negb ro_view w_ro]; [rewrite andb_false_r|rewrite andb_true_r]; reflexivity.
    + destruct ro; [|discriminate]. injection CH as <- <-. rewrite G by reflexivity. cbn [ro_view w_ro negb]. rewrite andb_false_r. reflexivity.
  - destruct (nth_error (s_vars st) o1) as [[b|w|d' mx r]|]; try discriminate. destruct (negb _); [discriminate|]. destruct (negb _); [discriminate|].
    destruct d'; [|discriminate]. unfold set_length in S. destruct (Nat.eqb _ _); [discriminate|]. destruct (locked _ _); discriminate.
  - destruct (nth_error (s_vars st) o1) as [[b|w|d mx r]|] eqn:Y; try discriminate. destruct (buffer_view p st o1 d mx) as [w|] eqn:B; [|discriminate].
    injection S as <-. cbn [s_vars] in VS. apply app_inv_head in VS. injection VS as <-. eexists. split; [reflexivity|]. cbn [writable negb]. rewrite andb_true_r.
    change (negb (w_ro w) = writable st (PvBuffer d mx r)). exact (buffer_view_writable _ _ _ _ _ r _ B).
  - destruct (nth_error (s_vars st) o1) as [[b|w|[b|w] mx r]|]; try discriminate. destruct (_ && _); discriminate.
Qed.
