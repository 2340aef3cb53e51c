(** C80, continued: what the constructor accepts, what writes do, and what readonly buffers keep. *)
From Coq Require Import List NArith ZArith Bool Lia ZifyBool ZifyNat.
From Verif Require Import Base ModelArray ModelBuffer ModelOwner SpecOwner OwnerFacts OwnerFacts2 OwnerFacts3 OwnerFacts4 Prop_Owner.
Import ListNotations.
Open Scope Z_scope.

(** ** The constructor *)
Lemma mem_length st w : view_ok st w -> w_live w = true -> length (mem st w) = w_len w.
Proof. intros [F _] L. specialize (F L). unfold mem, slice. rewrite firstn_length, skipn_length. lia. Qed.
Lemma source_contents p st h y : st_ok st -> nth_error (s_vars st) h = Some y ->
  match source_of p st h with
  | SrcErr e => contents st h = None \/ (type_of st h = Some TArrayBuffer /\ p = false)
  | s => contents st h = Some (source_bytes st s)
  end.
Proof.
  intros OK Y. pose proof (OK _ _ Y) as V. unfold source_of, contents, type_of. rewrite Y. destruct y as [b|w|d mx r]; [reflexivity| |].
  - destruct (w_live w); [reflexivity|auto].
  - destruct p; [|auto]. unfold buffer_view. destruct d as [b|u].
    + cbn [source_bytes]. unfold mem, slice. cbn [w_blk w_off w_len skipn]. rewrite firstn_min. reflexivity.
    + destruct (w_live u); [|auto]. cbn [source_bytes]. unfold mem, slice. cbn [w_blk w_off w_len]. rewrite firstn_firstn. reflexivity.
Qed.
Lemma chosen p st a : st_ok st -> (forall h, data_arg a h -> (h < length (s_vars st))%nat) ->
  let copy := match na_copy a with Some c => c | None => true end in
  let readonly := match na_readonly a with Some r => r | None => false end in
  match choose_data p st a copy readonly with
  | Err e => exists n, na_length a = Some n /\ n < 0 /\ ~ wants_readonly a \/
      (exists h, data_arg a h /\ (contents st h = None \/ type_of st h = Some TArrayBuffer /\ (p = false \/ no_copy a /\ ~ wants_readonly a)))
  | Ok (d, st1) =>
      (exists c, asked_contents st a c /\ match d with BdBlock b => k_data (blk st1 b) = c | BdView w => w_live w = true /\ mem st1 w = c /\ length c = w_len w end) /\
      (forall h, data_arg a h -> contents st h <> None /\ (type_of st h = Some TArrayBuffer -> p = true /\ (~ no_copy a \/ wants_readonly a))) /\
      (forall n, na_length a = Some n -> 0 <= n \/ wants_readonly a) /\
      (match d with BdBlock b => k_mut (blk st1 b) | BdView _ => false end = true <-> ~ wants_readonly a /\ forall h, data_arg a h -> no_copy a -> type_of st h = Some TByteArray) /\
      s_vars st1 = s_vars st
  end.
Proof.
  intros OK IN copy readonly. assert (RO : readonly = true <-> wants_readonly a).
  { unfold readonly, wants_readonly. destruct (na_readonly a) as [[]|]; split; congruence. }
  assert (CP : copy = false <-> no_copy a).
  { unfold copy, no_copy. destruct (na_copy a) as [[]|]; split; congruence. }
  unfold choose_data. destruct (na_length a) as [n|] eqn:EL.
  - destruct ((n <? 0) && negb readonly) eqn:C.
    + exists n. left. split; [reflexivity|]. split; [lia|]. rewrite <- RO. intros R. rewrite R, andb_false_r in C. discriminate.
    + split.
      { exists (zeros (Z.to_nat n)). split; [apply ac_length; exact EL|]. unfold add_block. rewrite blk_new. reflexivity. }
      split; [intros h [X _]; congruence|]. split; [intros m E; injection E as <-; rewrite <- RO; destruct readonly; [auto|left; lia]|].
      split; [|reflexivity]. unfold add_block. rewrite blk_new. cbn [k_mut]. rewrite <- RO. destruct readonly; cbn [negb].
      * split; [discriminate|]. intros [X _]. exfalso. apply X. reflexivity.
      * split; [intros _|reflexivity]. split; [discriminate|]. intros h [X _]. congruence.
  - destruct (na_data a) as [h|] eqn:ED.
    2:{ cbn [Z.ltb Z.compare andb]. replace (0 <? 0) with false by reflexivity. cbn [andb]. split.
        { exists []. split; [apply ac_none; auto|]. unfold add_block. rewrite blk_new. reflexivity. }
        split; [intros h [_ X]; congruence|]. split; [discriminate|].
        split; [|reflexivity]. unfold add_block. rewrite blk_new. cbn [k_mut]. rewrite <- RO. destruct readonly; cbn [negb].
        * split; [discriminate|]. intros [X _]. exfalso. apply X. reflexivity.
        * split; [intros _|reflexivity]. split; [discriminate|]. intros h [_ X]. congruence. }
    assert (DA : data_arg a h) by (split; auto). pose proof (IN h DA) as Lh. destruct (nth_error (s_vars st) h) as [y|] eqn:Y; [|apply nth_error_None in Y; lia].
    assert (UH : forall h', data_arg a h' -> h' = h) by (intros h' [_ X]; congruence).
    pose proof (source_contents p st h y OK Y) as SC. pose proof (source_ok p st h OK) as SK.
    destruct (source_shape p st h) as [(e & So)|(y0 & Y0 & So)].
    { rewrite So in *. assert (G : contents st h = None \/ type_of st h = Some TArrayBuffer /\ (p = false \/ no_copy a /\ ~ wants_readonly a)).
      { destruct SC as [C|[C1 C2]]; auto. }
      destruct y as [b|w|dd mx r]; [exists 0; right; eauto|exists 0; right; eauto|]. destruct (copy || readonly); exists 0; right; eauto. }
    rewrite Y in Y0. injection Y0 as <-.
    assert (NB : match source_of p st h with SrcErr _ => False | _ => True end) by (destruct (source_of p st h); auto).
    assert (CN : contents st h = Some (source_bytes st (source_of p st h))) by (destruct (source_of p st h); auto; contradiction).
    assert (TA : type_of st h = Some TArrayBuffer -> p = true).
    { unfold type_of. rewrite Y. destruct (source_of p st h) as [b|w|e|w]; [subst y; destruct (k_mut (blk st b)); discriminate|destruct So as [-> _]; discriminate|contradiction|].
      destruct So as (d & mx & r & -> & -> & _). reflexivity. }
    destruct copy eqn:Cc.
    { assert (NC : ~ no_copy a) by (rewrite <- CP; discriminate).
      assert (E : forall (X : result (bdata * mstate)) (Q : result (bdata * mstate) -> Prop), Q X -> Q match source_of p st h with SrcErr e => Err e | _ => X end).
      { intros X Q q. destruct (source_of p st h); auto. contradiction. }
      assert (Q : forall k : bytes, k = source_bytes st (source_of p st h) ->
        (exists c, asked_contents st a c /\ k_data (blk (add_block st (mkBlock k (negb readonly))) (length (s_blocks st))) = c) /\
        (forall h', data_arg a h' -> contents st h' <> None /\ (type_of st h' = Some TArrayBuffer -> p = true /\ (~ no_copy a \/ wants_readonly a))) /\
        (forall n : Z, None = Some n -> 0 <= n \/ wants_readonly a) /\
        (k_mut (blk (add_block st (mkBlock k (negb readonly))) (length (s_blocks st))) = true <-> ~ wants_readonly a /\ forall h', data_arg a h' -> no_copy a -> type_of st h' = Some TByteArray) /\
        s_vars st = s_vars st).
      { intros k ->. split.
        { eexists. split; [eapply ac_data; [exact DA|exact CN]|]. unfold add_block. rewrite blk_new. reflexivity. }
        split; [intros h' D'; rewrite (UH h' D'); split; [congruence|auto]|]. split; [discriminate|]. split; [|reflexivity].
        unfold add_block. rewrite blk_new. cbn [k_mut]. rewrite <- RO. destruct readonly; cbn [negb].
        - split; [discriminate|]. intros [X _]. exfalso. apply X. reflexivity.
        - split; [intros _|reflexivity]. split; [discriminate|]. intros h' D' X. contradiction. }
      destruct (source_of p st h) as [b|w|e|w]; [| |contradiction|]; apply Q; reflexivity. }
    assert (NC : no_copy a) by (apply CP; reflexivity).
    assert (TY : type_of st h = Some match source_of p st h with SrcBlock b => if k_mut (blk st b) then TByteArray else TBytes | SrcView _ => TMemoryView | _ => TArrayBuffer end).
    { unfold type_of. rewrite Y. destruct (source_of p st h) as [b|w|e|w]; [subst y; reflexivity|destruct So as [-> _]; reflexivity|contradiction|].
      destruct So as (d & mx & r & -> & _). reflexivity. }
    destruct (source_of p st h) as [b|w|e|w]; [| |contradiction|].
    + cbn [source_bytes] in CN. split.
      { eexists. split; [eapply ac_data; [exact DA|exact CN]|]. destruct (readonly && k_mut (blk st b)); [|reflexivity].
        split; [reflexivity|]. split; [apply mem_all; reflexivity|reflexivity]. }
      split; [intros h' D'; rewrite (UH h' D'); split; [congruence|rewrite TY; destruct (k_mut (blk st b)); discriminate]|]. split; [discriminate|]. split; [|reflexivity].
      rewrite <- RO. destruct (k_mut (blk st b)) eqn:Mu.
      * rewrite andb_true_r. destruct readonly.
        -- split; [discriminate|]. intros [X _]. exfalso. apply X. reflexivity.
        -- split; [intros _|auto]. split; [discriminate|]. intros h' D' _. rewrite (UH h' D'). exact TY.
      * rewrite andb_false_r. rewrite Mu. split; [discriminate|]. intros [_ X]. specialize (X h DA NC). congruence.
    + cbn [source_bytes] in CN. destruct SK as (S1 & S2 & S3). split.
      { eexists. split; [eapply ac_data; [exact DA|exact CN]|]. destruct readonly; (split; [auto|]; split; [reflexivity|]); exact (mem_length st w S2 S3). }
      split; [intros h' D'; rewrite (UH h' D'); split; [congruence|rewrite TY; discriminate]|]. split; [discriminate|]. split; [|reflexivity].
      split; [discriminate|]. intros [_ X]. specialize (X h DA NC). congruence.
    + cbn [source_bytes] in CN. destruct SK as (S1 & S2 & S3). destruct readonly eqn:Rr.
      * split.
        { eexists. split; [eapply ac_data; [exact DA|exact CN]|]. split; [reflexivity|]. split; [reflexivity|]. exact (mem_length st w S2 S3). }
        split; [intros h' D'; rewrite (UH h' D'); split; [congruence|intros T; split; [auto|right; apply RO; reflexivity]]|]. split; [discriminate|]. split; [|reflexivity].
        split; [discriminate|]. intros [X _]. exfalso. apply X, RO. reflexivity.
      * exists 0. right. exists h. split; [exact DA|]. right. split; [exact TY|]. right. split; [exact NC|]. rewrite <- RO. discriminate.
Qed.
Lemma asked_unique st a c c' : asked_contents st a c -> asked_contents st a c' -> c = c'.
Proof. intros [n A|A B|h d [A A'] B] H; destruct H as [n' P|P Q|h' d' [P P'] Q]; congruence. Qed.
Lemma asked_len st a c n : asked_contents st a c -> asked_length st a n -> n = Z.of_nat (length c).
Proof.
  intros A H. destruct H as [n' P|P Q|h' d' [P P'] Q]; destruct A as [m A|A B|h d [A A'] B]; try congruence; try reflexivity.
  rewrite zeros_length. assert (n' = m) as -> by congruence. lia.
Qed.
Lemma len_asked st a c : asked_contents st a c -> asked_length st a (Z.of_nat (length c)).
Proof.
  intros [m A|A B|h d A B]; [|apply al_none; auto|eapply al_data; eauto].
  replace (Z.of_nat (length (zeros (Z.to_nat m)))) with (Z.max 0 m) by (rewrite zeros_length; lia). apply al_length. exact A.
Qed.
(** The constructor raises exactly on the arguments of [refused]; otherwise the new variable is a JSArrayBuffer that reads as asked. *)
Theorem C80_new : forall p ops st tr a st' out, mrun p ms_start ops = (st, tr) -> (forall h, data_arg a h -> (h < var_count tr)%nat) ->
  mstep p st (MBuffer a) = (st', out) ->
  (out <> MNew <-> refused p st a) /\
  (out = MNew -> exists c, asked_contents st a c /\ contents st' (var_count tr) = Some c /\
     max_byte_length st' (var_count tr) = Some match na_max a with Some m => m | None => Z.of_nat (length c) end /\
     (is_resizable st' (var_count tr) = true <-> wants_resizable a)).
Proof.
  intros p ops st tr a st' out E IN S. destruct (run_ok _ _ _ _ E) as [OK R]. rewrite (ro_len _ _ R) in *.
  pose proof (chosen p st a OK IN) as G. cbv zeta in G. cbn [mstep] in S. unfold new_buffer in S. cbv zeta in S.
  set (rz := match na_resizable a with Some true => true | _ => match na_max a with Some _ => true | None => false end end) in *.
  set (ro := match na_readonly a with Some r => r | None => false end) in *.
  assert (RZ : rz = true <-> wants_resizable a).
  { unfold rz, wants_resizable. destruct (na_resizable a) as [[]|], (na_max a); split; intros X; auto; try (right; discriminate); try (destruct X; congruence); try discriminate. }
  assert (RO : ro = true <-> wants_readonly a).
  { unfold ro, wants_readonly. destruct (na_readonly a) as [[]|]; split; congruence. }
  destruct (rz && ro) eqn:Both.
  { injection S as <- <-. split; [|discriminate]. split; [intros _|discriminate]. apply andb_true_iff in Both as [B1 B2]. apply rf_both; tauto. }
  destruct (choose_data p st a _ ro) as [[d st1]|e].
  2:{ injection S as <- <-. split; [|discriminate]. split; [intros _|discriminate]. destruct G as (n & [(G1 & G2 & G3)|(h & G1 & [G2|[G2 G3]])]).
      - eapply rf_negative; eauto. - eapply rf_released; eauto. - eapply rf_buffer; eauto. }
  destruct G as ((c & AC & CD) & G1 & G2 & G3 & G4).
  assert (LEN : bd_len st1 d = length c). { destruct d as [b|w]; cbn [bd_len]; [rewrite CD; reflexivity|]. symmetry. apply CD. }
  destruct (rz && negb (match d with BdBlock b => k_mut (blk st1 b) | BdView _ => false end)) eqn:Wr.
  { injection S as <- <-. split; [|discriminate]. split; [intros _|discriminate]. apply andb_true_iff in Wr as [W1 W2]. apply negb_true_iff in W2.
    assert (NR : ~ wants_readonly a) by (rewrite <- RO; destruct ro, rz; discriminate).
    destruct (na_length a) as [n|] eqn:EL.
    { exfalso. enough (X : (match d with BdBlock b => k_mut (blk st1 b) | BdView _ => false end) = true) by congruence. apply G3. split; [exact NR|]. intros h [X _]. congruence. }
    destruct (na_data a) as [h|] eqn:ED.
    2:{ exfalso. enough (X : (match d with BdBlock b => k_mut (blk st1 b) | BdView _ => false end) = true) by congruence. apply G3. split; [exact NR|]. intros h [_ X]. congruence. }
    assert (DA : data_arg a h) by (split; auto). destruct (type_of st h) as [t|] eqn:T.
    2:{ exfalso. unfold type_of in T. pose proof (IN h DA) as L. destruct (nth_error (s_vars st) h) as [[| |]|] eqn:Y; try discriminate. apply nth_error_None in Y. lia. }
    assert (C : no_copy a /\ t <> TByteArray).
    { destruct (na_copy a) as [[]|] eqn:Ec; (split; [unfold no_copy|]); try exact Ec.
      1, 2, 4, 5: exfalso; enough (X : (match d with BdBlock b => k_mut (blk st1 b) | BdView _ => false end) = true) by congruence; apply G3; split; [exact NR|]; unfold no_copy; intros; congruence.
      intros ->. enough (X : (match d with BdBlock b => k_mut (blk st1 b) | BdView _ => false end) = true) by congruence. apply G3. split; [exact NR|].
      intros h' [_ X] _. congruence. }
    eapply rf_wrap; [exact DA|apply C|apply RZ; exact W1|]. rewrite T. destruct C as [_ C]. congruence. }
  destruct (match na_max a with Some m => m | None => Z.of_nat (bd_len st1 d) end <? Z.of_nat (bd_len st1 d)) eqn:Mx.
  { injection S as <- <-. split; [|discriminate]. split; [intros _|discriminate]. destruct (na_max a) as [m|] eqn:EM; [|lia].
    eapply rf_max; [exact EM|apply (len_asked _ _ _ AC)|]. rewrite LEN in Mx. lia. }
  injection S as <- <-. rewrite LEN in *. split.
  - split; [contradiction|]. intros [W1 W2|n N1 N2 N3|h H1 H2|h H1 H2 H3|h H1 H2 H3 H4|m n M1 M2 M3]; exfalso.
    + apply RZ in W1. apply RO in W2. rewrite W1, W2 in Both. discriminate.
    + destruct (G2 n N1); [lia|contradiction].
    + destruct (G1 h H1). contradiction.
    + destruct (G1 h H1) as [_ X]. destruct (X H2) as [X1 [X2|X2]]; destruct H3 as [H3|[H3 H5]]; try congruence; contradiction.
    + apply RZ in H3. rewrite H3 in Wr, Both. cbn [andb] in Wr, Both. apply negb_false_iff in Wr. apply G3 in Wr as [_ X]. apply H4. apply X; auto.
    + rewrite M1 in Mx. rewrite (asked_len _ _ _ _ AC M2) in M3. lia.
  - intros _. exists c. split; [exact AC|].
    assert (X : nth_error (s_vars st1 ++ [PvBuffer d match na_max a with Some m => m | None => Z.of_nat (length c) end rz]) (length (s_vars st)) =
      Some (PvBuffer d match na_max a with Some m => m | None => Z.of_nat (length c) end rz)) by (rewrite <- G4; apply nth_error_last).
    unfold contents, max_byte_length, is_resizable. cbn [s_vars]. rewrite X. split; [|split; [reflexivity|exact RZ]].
    assert (FI : forall k, k = c -> firstn (Z.to_nat match na_max a with Some m => m | None => Z.of_nat (length c) end) k = c).
    { intros k ->. apply firstn_all2. destruct (na_max a); lia. }
    destruct d as [b|w]; [|destruct CD as (L & CM & _); rewrite L]; f_equal; apply FI; [exact CD|exact CM].
Qed.
Print Assumptions C80_new.
