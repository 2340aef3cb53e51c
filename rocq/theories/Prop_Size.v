(** C74: the size of what dumps writes. *)
From Coq Require Import List NArith ZArith Bool Lia ZifyBool ZifyNat ZifyN.
From Verif Require Import Base Dict ModelTags ModelPrim SpecPrim PrimFacts ModelLog ModelArray ArrayFacts ArrayFacts3 ModelValue ModelObject ModelMap ModelBuffer ModelHeap
  ModelDecode ModelEncode HashFacts SpecEncode EncodeFacts EncodeFacts2 EncodeFacts3 SpecSize SizeFacts Prop_Encode.
Import ListNotations.
Open Scope N_scope.

(** With object references the output is bounded by the header, the root's occurrence and what each object
    that occurs accounts for, once. The holes of an array account for nothing but the width of its length. *)
Theorem C74_linear : forall H cfg node root depth bs objs, wf_graph H cfg root ->
  dumps_depth depth (steps_of H cfg true node) root = Ok bs -> (forall o, occurs H root (VRef o) -> In o objs) ->
  lenN bs <= 2 + item H node root + sum (map (object H node) objs).
Proof.
  intros H cfg node root depth bs objs WF E A. destruct (dumps_size H cfg node root WF depth bs E) as (r & ND & O & L).
  pose proof (wsum_incl H node r objs ND (fun o I => A o (O o I))) as W. unfold wsum in *. lia.
Qed.
Print Assumptions C74_linear.
Theorem C74_dumps : forall H cfg root bs objs, wf_graph H cfg root -> dumps H cfg root = Ok bs ->
  (forall o, occurs H root (VRef o) -> In o objs) -> lenN bs <= 2 + item H false root + sum (map (object H false) objs).
Proof. intros H cfg root bs objs WF E A. exact (C74_linear H cfg false root _ bs objs WF E A). Qed.
Print Assumptions C74_dumps.

Lemma filter_len {A} (f : A -> bool) l : (length (filter f l) <= length l)%nat.
Proof. induction l as [|a l IH]; cbn [filter length]; [lia|]. destruct (f a); cbn [length]; lia. Qed.

Lemma used_elements l : Forall (fun e => e <> Some VHole) l ->
  Z.of_N (lenN (filter (fun v => match v with VHole => false | _ => true end) (map of_elem l))) = count_used l.
Proof.
  induction 1 as [|[v|] l N F IH]; [reflexivity| |]; cbn [map of_elem filter]; rewrite count_used_cons; cbn [is_some]; [|exact IH].
  destruct v; try congruence; rewrite lenN_cons; lia.
Qed.
Lemma mostly_holes_spec (x : jsobj val) : wf_jsobj x -> sparse_is_smaller (jo_arr x) = true <-> mostly_holes (elements x).
Proof.
  intros (A & _ & _ & NH & _). unfold sparse_is_smaller, mostly_holes. rewrite arr_used_eq, arr_len_eq by auto. cbv zeta.
  pose proof (used_elements _ NH) as U. fold (elements x) in U. rewrite <- U.
  assert (L : ModelArray.zlen (aabs (jo_arr x)) = Z.of_N (lenN (elements x))) by (unfold ModelArray.zlen, elements, lenN; rewrite map_length; lia).
  rewrite L. change (2 ^ 14)%Z with 16384%Z. change (2 ^ 14) with 16384.
  assert (C : (Z.of_N (lenN (elements x)) <? 16384)%Z = (lenN (elements x) <? 16384)) by lia. rewrite C.
  assert (Q : (count_used (aabs (jo_arr x)) <= ModelArray.zlen (aabs (jo_arr x)))%Z) by (unfold count_used, ModelArray.zlen; pose proof (filter_len is_some (aabs (jo_arr x))); lia).
  rewrite <- U, L in Q. destruct (lenN (elements x) <? 16384); rewrite Z.ltb_lt; lia.
Qed.

(** Wherever an array is written, and not a reference to it, it has the sparse form (tag 'a') exactly if it is
    mostly holes, and the dense form (tag 'A') otherwise. *)
Theorem C74_array_form : forall H cfg refs node o x depth st bs st', wf_obj H cfg (OArray x) -> nth_error H o = Some (OArray x) ->
  refs = false \/ log_contains pyid (es_log st) o = false ->
  encode depth (steps_of H cfg refs node) (VRef o) st = Ok (bs, st') ->
  exists tag tail, bs = tag :: tail /\ (tag = 97 <-> mostly_holes (elements x)) /\ (tag = 65 <-> ~ mostly_holes (elements x)).
Proof.
  intros H cfg refs node o x depth st bs st' WX Hx NL E. destruct depth; [discriminate E|]. cbn [encode] in E.
  assert (T : exists s, step_tagwriter H cfg (encode depth (steps_of H cfg refs node)) (VRef o) (chain (encode depth (steps_of H cfg refs node)) []) s = Ok (bs, st')).
  { assert (HK : hash_key H (VRef o) = None) by (unfold hash_key; rewrite hash_S, Hx; reflexivity).
    assert (S1 : chain (encode depth (steps_of H cfg refs node)) ((if node then [step_node H] else []) ++ [step_tagwriter H cfg]) (VRef o) st = Ok (bs, st') ->
      exists s, step_tagwriter H cfg (encode depth (steps_of H cfg refs node)) (VRef o) (chain (encode depth (steps_of H cfg refs node)) []) s = Ok (bs, st')).
    { intros E1. exists st. destruct node; cbn [app chain] in E1; auto. unfold step_node in E1. rewrite Hx in E1. exact E1. }
    apply S1. unfold ModelEncode.steps_of in E at 2. destruct refs; cbn [app] in E; [|exact E]. cbn [chain] in E.
    unfold step_references, deduplicate in E. rewrite HK in E. destruct NL as [|NL]; [discriminate|]. rewrite NL in E. exact E. }
  destruct T as [s T]. cbn [step_tagwriter] in T. rewrite Hx in T. unfold serialize_js_array in T.
  pose proof (mostly_holes_spec x WX) as M. destruct WX as (A & WX). destruct (sparse_is_smaller (jo_arr x)).
  - destruct (jo_items x) as [l|e]; cbn [w_with] in T; [|discriminate]. unfold write_sparse in T. destruct (_ || _)%bool in T; [discriminate|].
    winv. eexists _, _. cbn [app]. split; [reflexivity|]. change (tag_byte kBeginSparseJSArray) with 97.
    split; [tauto|]. split; [discriminate|]. intros N. elim N. tauto.
  - rewrite arr_iter_eq in T by auto. cbn [w_with] in T. unfold write_dense in T. winv. eexists _, _. cbn [app]. split; [reflexivity|].
    change (tag_byte kBeginDenseJSArray) with 65. split; [split; [discriminate|]; intros C; apply M in C; discriminate C|].
    split; auto. intros _ C. apply M in C. discriminate C.
Qed.
Print Assumptions C74_array_form.
Theorem C74_root_form : forall H cfg refs node o x depth bs, wf_graph H cfg (VRef o) -> nth_error H o = Some (OArray x) ->
  dumps_depth depth (steps_of H cfg refs node) (VRef o) = Ok bs ->
  exists tag tail, bs = [255; 15] ++ tag :: tail /\ (tag = 97 <-> mostly_holes (elements x)) /\ (tag = 65 <-> ~ mostly_holes (elements x)).
Proof.
  intros H cfg refs node o x depth bs WF Hx E. unfold dumps_depth in E. apply bind_Ok in E as [[b st] [E1 E]]. injection E as <-.
  assert (WX : wf_obj H cfg (OArray x)). { destruct (WF _ (occ_root _ _)) as (y & Hy & Wy). rewrite Hx in Hy. injection Hy as <-. auto. }
  destruct (C74_array_form H cfg refs node o x depth es_empty b st WX Hx (or_intror eq_refl) E1) as (tag & t & -> & A & B).
  exists tag, t. split; [reflexivity|]. auto.
Qed.
Print Assumptions C74_root_form.

(** An array of 300 holes and then itself, with a property. *)
Definition holes_arr : arr val := ADense (dense_init (repeat None 300 ++ [Some (VRef 0)])).
Definition holes_obj : obj := OArray (mkObj holes_arr [([97], VInt 5)]).
Definition holes_heap : heap := [holes_obj].
Lemma holes_wf cfg : wf_graph holes_heap cfg (VRef 0).
Proof.
  assert (V : wf_val holes_heap cfg (VRef 0)).
  { exists holes_obj. split; [reflexivity|]. change (wf_jsobj (mkObj holes_arr [([97], VInt 5)])). unfold wf_jsobj.
    change (jo_arr (mkObj holes_arr [([97], VInt 5)])) with holes_arr. change (jo_props (mkObj holes_arr [([97], VInt 5)])) with [([97], VInt 5)].
    assert (AB : aabs holes_arr = repeat None 300 ++ [Some (VRef 0)]) by (vm_compute; reflexivity).
    rewrite AB. split; [apply dense_init_spec|]. split; [repeat constructor; intros []|]. split; [repeat constructor; intros fr; vm_compute; reflexivity|].
    split; [|split; [repeat constructor; discriminate|vm_compute; reflexivity]].
    apply Forall_app. split; [apply Forall_forall; intros e I; apply repeat_spec in I; subst; discriminate|repeat constructor; discriminate]. }
  intros v O. assert (K : wf_val holes_heap cfg v /\ (forall o, v = VRef o -> o = 0%nat)).
  { induction O as [|o x v O IH Hx I]; [split; [exact V|intros o [= <-]; reflexivity]|].
    destruct IH as [_ IH]. rewrite (IH o eq_refl) in Hx. change (Some holes_obj = Some x) in Hx. assert (x = holes_obj) as -> by congruence.
    assert (CH : children holes_obj =
      repeat VHole 300 ++ [VRef 0; VInt 300; VRef 0; VStr [97]; VInt 5]) by (vm_compute; reflexivity).
    rewrite CH in I. apply in_app_iff in I as [I|I]; [apply repeat_spec in I; subst; split; [exact Logic.I|intros; discriminate]|].
    repeat (destruct I as [<-|I]; [split; [first [exact V|exact Logic.I|repeat constructor; unfold code_point; lia]|intros ? E; first [injection E as <-; reflexivity|discriminate E]]|]).
    destruct I. }
  apply K.
Qed.
Example C74_case : exists bs, wf_graph holes_heap (ex_ecfg ex_none) (VRef 0) /\ dumps holes_heap (ex_ecfg ex_none) (VRef 0) = Ok bs /\
  (forall o, occurs holes_heap (VRef 0) (VRef o) -> In o [0%nat]) /\ lenN bs = 19 /\
  2 + item holes_heap false (VRef 0) + sum (map (object holes_heap false) [0%nat]) = 43.
Proof.
  eexists. split; [apply holes_wf|]. split; [vm_compute; reflexivity|]. split; [|split; vm_compute; reflexivity].
  intros o O. destruct (holes_wf (ex_ecfg ex_none) _ O) as (x & Hx & _). destruct o as [|o]; [left; auto|]. destruct o; discriminate Hx.
Qed.
Example C74_array_case : mostly_holes (repeat VHole 4 ++ [VInt 1]) /\ ~ mostly_holes (repeat VHole 3 ++ [VInt 1]).
Proof. split; vm_compute; [reflexivity|intros X; discriminate X]. Qed.

(** * What the bound does not say *)
(** Without the step that writes references there is no such bound: n lists of two entries each, the entries of one
    being the next, give 2^n bytes. *)
Definition doubled (n : nat) : heap := map (fun i => OSeq false [VRef (S i); VRef (S i)]) (seq 0 n) ++ [OSeq false []].
Lemma doubled_nth n i : (i < n)%nat -> nth_error (doubled n) i = Some (OSeq false [VRef (S i); VRef (S i)]).
Proof.
  intros L. unfold doubled. rewrite nth_error_app1 by (rewrite map_length, seq_length; lia).
  rewrite nth_error_map. rewrite (nth_error_nth' _ 0%nat) by (rewrite seq_length; lia). rewrite seq_nth by lia. reflexivity.
Qed.
Lemma doubled_last n : nth_error (doubled n) n = Some (OSeq false []).
Proof. unfold doubled. rewrite nth_error_app2 by (rewrite map_length, seq_length; lia). rewrite map_length, seq_length, Nat.sub_diag. reflexivity. Qed.
Lemma doubled_encode cfg n k : forall st, (k <= n)%nat -> es_allowed st = None ->
  exists bs st', encode (S k) (steps_of (doubled n) cfg false false) (VRef (n - k)) st = Ok (bs, st') /\ es_allowed st' = None /\ 2 ^ N.of_nat k <= lenN bs.
Proof.
  induction k as [|k IH]; intros st L A.
  - rewrite Nat.sub_0_r. cbn [encode]. unfold steps_of. cbn [app chain step_tagwriter]. rewrite doubled_last.
    unfold write_dense, w_record, w_seq, w_tag. cbn [bind es_allowed set_log]. rewrite A. cbn [bind w_varint w_raw w_values w_items w_nil].
    rewrite N.eqb_refl. cbn [bind w_nil es_allowed set_log]. rewrite A. cbn [bind].
    eexists _, _. split; [reflexivity|]. split; [exact A|]. cbv. discriminate.
  - assert (S (n - S k) = n - k)%nat as Q by lia. pose proof (doubled_nth n (n - S k)) as D. rewrite Q in D.
    set (enc := encode (S k) (steps_of (doubled n) cfg false false)) in *.
    change (encode (S (S k)) (steps_of (doubled n) cfg false false) (VRef (n - S k))) with (step_tagwriter (doubled n) cfg enc (VRef (n - S k)) (chain enc [])).
    cbn [step_tagwriter]. rewrite D by lia. unfold write_dense.
    set (s1 := set_log st (snd (log_record pyid (es_log st) (n - S k)%nat))).
    destruct (IH s1) as (b1 & s2 & E1 & A1 & L1); [lia|exact A|].
    destruct (IH s2) as (b2 & s3 & E2 & A2 & L2); [lia|exact A1|].
    unfold w_seq at 1. unfold w_record. cbn [bind]. fold s1. unfold w_seq at 1. unfold w_tag at 1. change (es_allowed s1) with (es_allowed st). rewrite A. cbn [bind].
    unfold w_seq at 1. cbn [w_varint w_raw bind]. unfold w_seq at 1. cbn [w_values]. unfold w_seq at 1. rewrite E1. cbn [bind]. unfold w_seq at 1. rewrite E2. cbn [bind w_nil].
    unfold count at 1. change (lenN [VRef (n - k); VRef (n - k)]) with 2. rewrite N.eqb_refl. unfold w_seq. cbn [bind w_nil w_items w_tag]. unfold w_tag. rewrite A2. cbn [bind w_varint w_raw].
    eexists _, _. split; [reflexivity|]. split; auto. repeat first [rewrite lenN_app|rewrite lenN_cons].
    rewrite Nat2N.inj_succ, N.pow_succ_r'. lia.
Qed.
Theorem C74_without_references_refuted : forall cfg n, exists bs,
  dumps_depth (S n) (steps_of (doubled n) cfg false false) (VRef 0) = Ok bs /\ 2 ^ N.of_nat n <= lenN bs /\
  sum (map (object (doubled n) false) (seq 0 (S n))) <= N.of_nat (S n) * (20 + 2 * width (lenN (doubled n))).
Proof.
  intros cfg n. destruct (doubled_encode cfg n n es_empty (le_n _) eq_refl) as (b & st & E & _ & L). rewrite Nat.sub_diag in E.
  exists (header_bytes ++ b). split; [|split].
  - unfold dumps_depth. rewrite E. reflexivity.
  - rewrite lenN_app. lia.
  - assert (B : forall i, (i <= n)%nat -> object (doubled n) false i <= 20 + 2 * width (lenN (doubled n))).
    { intros i Li. unfold object. destruct (Nat.eq_dec i n) as [->|].
      - rewrite doubled_last. unfold content. cbn [children]. change (items (doubled n) false []) with 0. change (width (lenN (@nil val))) with 1. lia.
      - rewrite doubled_nth by lia. unfold content. cbn [children]. unfold items. cbn [map sum item].
        change (lenN [VRef (S i); VRef (S i)]) with 2. change (width 2) with 1.
        assert (R : nth_error (doubled n) (S i) = Some (OSeq false []) \/ nth_error (doubled n) (S i) = Some (OSeq false [VRef (S (S i)); VRef (S (S i))])).
        { destruct (Nat.eq_dec (S i) n) as [<-|]; [left; apply doubled_last|right; apply doubled_nth; lia]. }
        destruct R as [-> | ->]; lia. }
    assert (G : forall l k, (forall i, In i l -> object (doubled n) false i <= k) -> sum (map (object (doubled n) false) l) <= N.of_nat (length l) * k).
    { induction l as [|i l IH]; intros k F; [cbn; lia|]. cbn [map sum length]. specialize (F i (or_introl eq_refl)) as F1.
      specialize (IH k (fun j J => F j (or_intror J))). lia. }
    rewrite <- (seq_length (S n) 0) at 2. apply G. intros i Ii. apply in_seq in Ii. apply B. lia.
Qed.
Print Assumptions C74_without_references_refuted.

(** Regular expressions (and errors without a cause) have no identity in the format: a list that holds one
    of n characters n times is written with n^2 characters, although there are two objects. *)
Definition repeated (n : nat) : heap := [OSeq false (repeat (VRef 1) n); ORegExp (repeat 97 n) 0].
Definition re_key (n : nat) : htype * hkey := (TOther, HRegExp (repeat 97 n) 0).
Definition re_ready (n : nat) (st : est) : Prop := (es_allowed st = None /\ es_size st = None) /\ log_contains pyid (es_log st) 1%nat = false /\
  (dget hash_key_eqb (re_key n) (es_seen st) = None \/ dget hash_key_eqb (re_key n) (es_seen st) = Some (VRef 1)).
Lemma ascii_payload n : exists p, utf8_payload (repeat 97 n) = Ok p /\ N.of_nat n <= lenN p.
Proof.
  assert (E : exists p, utf8_payload (repeat 97 n) = Ok p).
  { unfold utf8_payload, utf8_encode. assert (S : existsb is_surrogate (repeat 97 n) = false) by (induction n; auto). rewrite S. cbn [bind]. eauto. }
  destruct E as [p E]. exists p. split; auto.
  assert (C : Forall code_point (repeat 97 n)) by (apply Forall_forall; intros c I; apply repeat_spec in I; subst; unfold code_point; lia).
  apply (utf8_payload_size _ _ C) in E. unfold text in E. pose proof (width_pos (utf8_size (repeat 97 n))).
  assert (U : utf8_size (repeat 97 n) = N.of_nat n). { clear. unfold utf8_size. induction n; [reflexivity|]. cbn [repeat map sum]. change (char_size 97) with 1. lia. }
  lia.
Qed.
Lemma re_once cfg n enc st : re_ready n st ->
  exists bs st', chain enc (steps_of (repeated n) cfg true false) (VRef 1) st = Ok (bs, st') /\ re_ready n st' /\ N.of_nat n <= lenN bs.
Proof.
  intros ((A & Z) & L & S). destruct (ascii_payload n) as (p & Ep & Lp).
  assert (HK : hash_key (repeated n) (VRef 1) = Some (re_key n)) by reflexivity.
  assert (D : exists s1, deduplicate (repeated n) (VRef 1) st = (VRef 1, s1) /\ es_allowed s1 = None /\ es_log s1 = es_log st /\ re_ready n s1).
  { unfold deduplicate. rewrite HK, Z. destruct S as [S|S]; rewrite S; eexists; (split; [reflexivity|]); cbn [es_allowed es_log]; (split; [exact A|]); (split; [reflexivity|]).
    - split; [auto|]. split; [exact L|]. right. cbn [es_seen cache_miss]. rewrite <- (dset_fresh hash_key_eqb (re_key n) (VRef 1)) by auto.
      apply (dget_dset_same hash_key_eqb hash_key_eqb_spec).
    - split; auto. }
  destruct D as (s1 & D & A1 & L1 & R1). unfold steps_of. cbn [app chain]. unfold step_references. rewrite D, L1, L.
  cbn [step_tagwriter]. change (nth_error (repeated n) 1) with (Some (ORegExp (repeat 97 n) 0)). cbv beta iota.
  unfold write_regexp, write_utf8, w_seq, w_tag. rewrite A1, Ep. cbn [bind]. rewrite A1. cbn [bind w_raw w_varint].
  eexists _, _. split; [reflexivity|]. split; [exact R1|]. repeat first [rewrite lenN_app|rewrite lenN_cons]. lia.
Qed.
Lemma re_values cfg n enc m : enc = chain (encode 2 (steps_of (repeated n) cfg true false)) (steps_of (repeated n) cfg true false) -> forall st, re_ready n st ->
  exists bs st', w_values enc (repeat (VRef 1) m) st = Ok (bs, st') /\ re_ready n st' /\ N.of_nat m * N.of_nat n <= lenN bs.
Proof.
  intros ->. induction m as [|m IH]; intros st R.
  - exists [], st. split; [reflexivity|]. split; auto. cbn. lia.
  - destruct (re_once cfg n (encode 2 (steps_of (repeated n) cfg true false)) st R) as (b1 & s1 & E1 & R1 & L1). destruct (IH s1 R1) as (b2 & s2 & E2 & R2 & L2).
    exists (b1 ++ b2), s2. split; [|split; auto; rewrite lenN_app; lia].
    cbn [repeat w_values]. unfold w_seq. rewrite E1. cbn [bind]. rewrite E2. reflexivity.
Qed.
Theorem C74_regexps_refuted : forall cfg n, (0 < n)%nat -> exists bs, wf_graph (repeated n) cfg (VRef 0) /\
  dumps (repeated n) cfg (VRef 0) = Ok bs /\ N.of_nat n * N.of_nat n <= lenN bs.
Proof.
  intros cfg n Ln. set (H := repeated n). set (st0 := es_empty).
  assert (WF : wf_graph H cfg (VRef 0)).
  { assert (V : forall o, (o < 2)%nat -> wf_val H cfg (VRef o)).
    { intros o L. destruct o as [|[|o]]; [..|lia]; (eexists; split; [reflexivity|]); cbn [wf_obj]; [exact I|].
      split; [apply Forall_forall; intros c J; apply repeat_spec in J; subst; unfold code_point; lia|].
      eexists. split; [|reflexivity]. destruct n; [lia|]. reflexivity. }
    apply wf_graph_all; [apply V; lia|]. repeat constructor. cbn [children]. apply Forall_forall. intros v J. apply repeat_spec in J. subst. apply V. lia. }
  set (enc := chain (encode 2 (steps_of H cfg true false)) (steps_of H cfg true false)).
  set (s1 := set_log st0 (snd (log_record pyid (es_log st0) 0%nat))).
  destruct (re_values cfg n enc n eq_refl s1) as (b & s2 & E & R2 & L).
  { split; [split; reflexivity|]. split; [reflexivity|]. left. reflexivity. }
  eexists. split; [exact WF|]. split.
  - unfold dumps. change (length H + 2)%nat with 4%nat. unfold dumps_depth.
    change (encode 4 (default_steps H cfg)) with (chain enc (default_steps H cfg)).
    unfold default_steps. cbn [chain]. unfold step_references.
    assert (HK : deduplicate H (VRef 0) es_empty = (VRef 0, es_empty)) by reflexivity. rewrite HK.
    change (log_contains pyid (es_log es_empty) 0%nat) with false. cbv iota.
    cbn [step_tagwriter]. change (nth_error H 0) with (Some (OSeq false (repeat (VRef 1) n))). cbv beta iota.
    unfold write_dense, w_record. unfold w_seq at 1. cbn [bind]. fold st0. fold s1. unfold w_seq at 1. unfold w_tag at 1. change (es_allowed s1) with (@None tagset). cbn [bind].
    unfold w_seq at 1. cbn [w_varint w_raw bind]. unfold w_seq at 1. rewrite E. cbn [bind]. rewrite N.eqb_refl. destruct R2 as ((A2 & _) & _).
    unfold w_seq, w_tag. cbn [bind w_nil w_items]. rewrite A2. cbn [bind w_varint w_raw]. reflexivity.
  - repeat first [rewrite lenN_app|rewrite lenN_cons]. lia.
Qed.
Print Assumptions C74_regexps_refuted.
