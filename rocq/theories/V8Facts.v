(** Reading with V8's ids and with this library's: the states stay the same but for the ids from the first
    object on that only V8 numbers. *)
From Coq Require Import List NArith ZArith Bool Lia ZifyBool ZifyNat ZifyN.
From Verif Require Import Base ModelTags ModelPrim SpecPrim PrimFacts ModelValue ModelObject ModelMap ModelBuffer ModelHeap ModelDecode
  SpecWire SpecBuild DecodeSound DecodeComplete BuildFacts SpecV8.
Import ListNotations.
Open Scope N_scope.
Notation L st := (lenN (ds_log st)).

Section Facts.
Variable cfg : dcfg.
(** All references are below [m]. *)
Variable m : N.
Definition alike (s1 s2 : dstate) : Prop :=
  ds_heap s1 = ds_heap s2 /\
  (ds_log s1 = ds_log s2 \/
   (m <= L s1 /\ m <= L s2 /\ forall k, k < m -> nth_error (ds_log s1) (N.to_nat k) = nth_error (ds_log s2) (N.to_nat k))).
(** [n] is the number of V8's ids afterwards. *)
Definition outcome {A} (n : N) (r1 r2 : result (A * dstate)) : Prop :=
  match r1, r2 with
  | Ok (a, s1), Ok (b, s2) => a = b /\ alike s1 s2 /\ L s2 = n
  | Err e, Err e' => e = e'
  | _, _ => False
  end.
Lemma outcome_bind {A B} n n' (r1 r2 : result (A * dstate)) (k1 k2 : A * dstate -> result (B * dstate)) :
  outcome n r1 r2 -> (forall a s1 s2, alike s1 s2 -> L s2 = n -> outcome n' (k1 (a, s1)) (k2 (a, s2))) ->
  outcome n' (bind r1 k1) (bind r2 k2).
Proof.
  destruct r1 as [[a s1]|e], r2 as [[b s2]|e']; cbn [outcome bind]; try tauto.
  intros (<- & A1 & Ln) H. auto.
Qed.
Lemma alike_log s1 s2 id : alike s1 s2 -> id < m ->
  (id <? L s1) = (id <? L s2) /\ nth_error (ds_log s1) (N.to_nat id) = nth_error (ds_log s2) (N.to_nat id).
Proof.
  intros (_ & [-> | (A & B & C)]) I; auto. split; auto. lia.
Qed.
Lemma nth_app_l {A} (l r : list A) k : (k < length l)%nat -> nth_error (l ++ r) k = nth_error l k.
Proof. apply nth_error_app1. Qed.
Lemma alike_record v s1 s2 : alike s1 s2 -> alike (record v s1) (record v s2).
Proof.
  intros (H & C). split; [exact H|]. unfold record. cbn [ds_log]. destruct C as [-> | (A & B & C)]; [left; reflexivity|right].
  rewrite !lenN_app. split; [lia|]. split; [lia|]. intros k K. unfold lenN in *. rewrite !nth_app_l by lia. apply C. exact K.
Qed.
(** V8 numbers an object that the library does not. *)
Lemma alike_skip v s1 s2 : alike s1 s2 -> m <= L s2 -> alike s1 (record v s2).
Proof.
  intros (H & C) M. split; [exact H|]. right. unfold record. cbn [ds_log]. rewrite lenN_app.
  destruct C as [E | (A & B & C)].
  - rewrite E. split; [lia|]. split; [lia|]. intros k K. unfold lenN in *. rewrite nth_app_l by lia. reflexivity.
  - split; [lia|]. split; [lia|]. intros k K. unfold lenN in *. rewrite nth_app_l by lia. apply C. exact K.
Qed.
Lemma alike_heap s1 s2 h : alike s1 s2 -> alike (mkD h (ds_log s1)) (mkD h (ds_log s2)).
Proof. intros (_ & C). split; [reflexivity|exact C]. Qed.
Lemma alike_store i o s1 s2 : alike s1 s2 -> alike (store i o s1) (store i o s2).
Proof. intros A. unfold store. rewrite (proj1 A). apply alike_heap. exact A. Qed.
Lemma alike_alloc o s1 s2 : alike s1 s2 -> fst (alloc o s1) = fst (alloc o s2) /\ alike (snd (alloc o s1)) (snd (alloc o s2)).
Proof. intros A. unfold alloc. cbn [fst snd]. rewrite (proj1 A). split; [reflexivity|]. apply alike_heap. exact A. Qed.
Lemma alike_alloc_rec o s1 s2 : alike s1 s2 ->
  exists i t1 t2, alloc_rec o s1 = (i, t1) /\ alloc_rec o s2 = (i, t2) /\ alike t1 t2 /\ L t2 = L s2 + 1.
Proof.
  intros A. destruct (alike_alloc o s1 s2 A) as [Ef As]. unfold alloc_rec, alloc in *. cbn [fst snd] in *. rewrite Ef.
  do 3 eexists. split; [reflexivity|]. split; [reflexivity|]. split; [apply alike_record; exact As|rewrite log_record; reflexivity].
Qed.
Lemma alike_str enc s s1 s2 : alike s1 s2 -> alike (build_str enc s s1) (build_str enc s s2).
Proof. unfold build_str. destruct (stag_eqb enc kStringObject); auto using alike_record. Qed.
Lemma alike_field f s1 s2 : alike s1 s2 ->
  exists x t1 t2, build_field f s1 = (x, t1) /\ build_field f s2 = (x, t2) /\ alike t1 t2 /\ L t2 = L s2 + field_ids f.
Proof.
  intros A. destruct f as [[enc s]|]; cbn [build_field field_ids].
  - do 3 eexists. split; [reflexivity|]. split; [reflexivity|]. split; [apply alike_str; exact A|apply log_str].
  - exists None, s1, s2. split; [reflexivity|]. split; [reflexivity|]. split; [exact A|lia].
Qed.
Lemma alike_view b v s1 s2 : alike s1 s2 -> outcome (L s2 + view_ids v) (build_view b v s1) (build_view b v s2).
Proof.
  intros A. destruct v as [v|]; cbn [build_view view_ids].
  - rewrite (proj1 A). destruct (view_from_bytes _ _ _ _ _) as [x|e]; cbn [bind outcome]; [|reflexivity].
    destruct (alike_alloc_rec (OView b x) s1 s2 A) as (i & t1 & t2 & -> & -> & A' & Lt). cbn [outcome]. auto.
  - cbn [outcome]. split; [reflexivity|]. split; [exact A|lia].
Qed.

Definition below (l : list N) : Prop := forall id, In id l -> id < m.
Definition above (l : list N) : Prop := forall u, In u l -> m <= u.
Lemma below_app a b : below (a ++ b) -> below a /\ below b.
Proof. intros H. split; intros id I; apply H, in_or_app; auto. Qed.
Lemma above_app a b : above (a ++ b) -> above a /\ above b.
Proof. intros H. split; intros id I; apply H, in_or_app; auto. Qed.

Definition same w := forall s1 s2, below (referenced w) -> above (unnumbered w (L s2)) -> alike s1 s2 ->
  outcome (L s2 + v8_size w) (build cfg w s1) (v8_build cfg w s2).
Definition same_pairs ps := forall acc s1 s2, below (referenced_pairs ps) -> above (unnumbered_pairs ps (L s2)) -> alike s1 s2 ->
  outcome (L s2 + v8_size_pairs ps) (build_pairs cfg ps acc s1) (v8_build_pairs cfg ps acc s2).
Definition same_vals vs :=
  (forall acc s1 s2, below (referenced_vals vs) -> above (unnumbered_vals vs (L s2)) -> alike s1 s2 ->
    outcome (L s2 + v8_size_vals vs) (build_members cfg vs acc s1) (v8_build_members cfg vs acc s2)) /\
  (forall i acc s1 s2, below (referenced_vals vs) -> above (unnumbered_vals vs (L s2)) -> alike s1 s2 ->
    outcome (L s2 + v8_size_vals vs) (build_elems cfg vs i acc s1) (v8_build_elems cfg vs i acc s2)).

Theorem build_same : (forall w, same w) /\ (forall vs, same_vals vs) /\ (forall ps, same_pairs ps).
Proof.
  apply wval_mutind; intros.
  all: try (intros s1 s2 B U A; cbn [build v8_build v8_size outcome]; split; [reflexivity|]; split; [auto using alike_record, alike_str|];
            rewrite ?log_record, ?log_str; lia).
  - (* date *) intros s1 s2 B U A. cbn [build v8_build v8_size]. destruct (c_date cfg bits); [|reflexivity].
    destruct (alike_alloc_rec (ODate n) s1 s2 A) as (i & t1 & t2 & -> & -> & A' & Lt). cbn [outcome]. auto.
  - (* regexp *) intros s1 s2 B U A. cbn [build v8_build v8_size]. destruct (regexp_new s flags) as [o|e]; cbn [bind]; [|reflexivity].
    destruct (alike_alloc_rec o _ _ (alike_str enc s _ _ A)) as (i & t1 & t2 & -> & -> & A' & Lt). cbn [outcome].
    rewrite Lt, log_str. split; [reflexivity|]. split; [exact A'|lia].
  - (* map *) intros s1 s2 B U A. cbn [referenced unnumbered] in *. cbn [build v8_build v8_size].
    destruct (alike_alloc_rec (OMap []) s1 s2 A) as (i & t1 & t2 & -> & -> & A' & Lt).
    eapply outcome_bind; [apply H; [exact B|rewrite Lt; exact U|exact A']|]. intros o u1 u2 A2 L2. cbn [outcome].
    split; [reflexivity|]. split; [apply alike_store; exact A2|]. cbn [store ds_log]. lia.
  - (* set *) intros s1 s2 B U A. cbn [referenced unnumbered] in *. cbn [build v8_build v8_size].
    destruct (alike_alloc_rec (OSet []) s1 s2 A) as (i & t1 & t2 & -> & -> & A' & Lt).
    eapply outcome_bind; [apply (proj1 H); [exact B|rewrite Lt; exact U|exact A']|]. intros o u1 u2 A2 L2. cbn [outcome].
    split; [reflexivity|]. split; [apply alike_store; exact A2|]. cbn [store ds_log]. lia.
  - (* object *) intros s1 s2 B U A. cbn [referenced unnumbered] in *. cbn [build v8_build v8_size].
    destruct (alike_alloc_rec (OObject jo_empty) s1 s2 A) as (i & t1 & t2 & -> & -> & A' & Lt).
    eapply outcome_bind; [apply H; [exact B|rewrite Lt; exact U|exact A']|]. intros o u1 u2 A2 L2. cbn [outcome].
    split; [reflexivity|]. split; [apply alike_store; exact A2|]. cbn [store ds_log]. lia.
  - (* dense *) intros s1 s2 B U A. cbn [referenced unnumbered] in *. cbn [build v8_build v8_size].
    apply below_app in B as [B1 B2]. apply above_app in U as [U1 U2].
    destruct (alike_alloc_rec (OArray jo_empty) s1 s2 A) as (i & t1 & t2 & -> & -> & A' & Lt).
    eapply outcome_bind; [apply (proj2 H); [exact B1|rewrite Lt; exact U1|exact A']|]. intros o u1 u2 A2 L2.
    eapply outcome_bind; [apply H0; [exact B2|rewrite L2, Lt; exact U2|exact A2]|]. intros o' x1 x2 A3 L3. cbn [outcome].
    split; [reflexivity|]. split; [apply alike_store; exact A3|]. cbn [store ds_log]. lia.
  - (* sparse *) intros s1 s2 B U A. cbn [referenced unnumbered] in *. cbn [build v8_build v8_size].
    destruct (alike_alloc_rec (OArray jo_empty) s1 s2 A) as (i & t1 & t2 & -> & -> & A' & Lt).
    destruct (if 0 <? len then _ else _) as [o|e]; cbn [bind]; [|reflexivity].
    eapply outcome_bind; [apply H; [exact B|rewrite Lt; exact U|exact A']|]. intros o' u1 u2 A2 L2. cbn [outcome].
    split; [reflexivity|]. split; [apply alike_store; exact A2|]. cbn [store ds_log]. lia.
  - (* error *) intros s1 s2 B U A. cbn [build v8_build v8_size].
    destruct (alike_field msg s1 s2 A) as (x & t1 & t2 & -> & -> & A1 & L1).
    destruct (alike_field stack t1 t2 A1) as (y & u1 & u2 & -> & -> & A2 & L2).
    destruct (alike_alloc_rec (OError (proto_name name) (message_of x) y VNone) u1 u2 A2) as (i & x1 & x2 & -> & -> & A3 & L3).
    cbn [outcome]. split; [reflexivity|]. split; [exact A3|lia].
  - (* error with a cause *) intros s1 s2 B U A. cbn [referenced unnumbered] in *. cbn [build v8_build v8_size].
    destruct (alike_field msg s1 s2 A) as (x & t1 & t2 & -> & -> & A1 & L1).
    destruct (alike_field stack t1 t2 A1) as (y & u1 & u2 & -> & -> & A2 & L2).
    destruct (alike_alloc_rec (OError (proto_name name) (message_of x) y VNone) u1 u2 A2) as (i & x1 & x2 & -> & -> & A3 & L3).
    assert (U' : above (unnumbered cause (L x2))) by (rewrite L3, L2, L1; exact U).
    eapply outcome_bind; [apply H; [exact B|exact U'|exact A3]|]. intros c c1 c2 A4 L4.
    destruct (alike_field late c1 c2 A4) as (z & d1 & d2 & -> & -> & A5 & L5). cbn [outcome].
    split; [reflexivity|]. split; [apply alike_store; exact A5|]. cbn [store ds_log]. lia.
  - (* buffers *) intros s1 s2 B U A. cbn [build v8_build v8_size].
    destruct b as [d|d mx|id|id]; cbn [build_buf v8_build_buf unnumbered] in *.
    + destruct (alike_alloc_rec (OBuffer (mkBuf d (zlen d) false false)) s1 s2 A) as (i & t1 & t2 & -> & -> & A' & Lt).
      replace (L s2 + (1 + view_ids v)) with (L t2 + view_ids v) by lia. apply alike_view, A'.
    + destruct (alike_alloc_rec (OBuffer (mkBuf d (Z.of_N mx) true false)) s1 s2 A) as (i & t1 & t2 & -> & -> & A' & Lt).
      replace (L s2 + (1 + view_ids v)) with (L t2 + view_ids v) by lia. apply alike_view, A'.
    + destruct (alike_alloc (OShared id) s1 s2 A) as [Ef As]. unfold alloc_rec, alloc in *. cbn [fst snd] in *. rewrite Ef.
      assert (M : m <= L s2) by (apply U; left; reflexivity).
      assert (A2 : alike {| ds_heap := ds_heap s1 ++ [OShared id]; ds_log := ds_log s1 |}
                     (record (VRef (length (ds_heap s2))) {| ds_heap := ds_heap s2 ++ [OShared id]; ds_log := ds_log s2 |})) by (apply alike_skip; [exact As|exact M]).
      pose proof (alike_view (length (ds_heap s2)) v _ _ A2) as V. rewrite log_record in V. cbn [ds_log] in V.
      replace (L s2 + (1 + view_ids v)) with (L s2 + 1 + view_ids v) by lia. exact V.
    + destruct (alike_alloc (OTransfer id) s1 s2 A) as [Ef As]. unfold alloc_rec, alloc in *. cbn [fst snd] in *. rewrite Ef.
      assert (M : m <= L s2) by (apply U; left; reflexivity).
      assert (A2 : alike {| ds_heap := ds_heap s1 ++ [OTransfer id]; ds_log := ds_log s1 |}
                     (record (VRef (length (ds_heap s2))) {| ds_heap := ds_heap s2 ++ [OTransfer id]; ds_log := ds_log s2 |})) by (apply alike_skip; [exact As|exact M]).
      pose proof (alike_view (length (ds_heap s2)) v _ _ A2) as V. rewrite log_record in V. cbn [ds_log] in V.
      replace (L s2 + (1 + view_ids v)) with (L s2 + 1 + view_ids v) by lia. exact V.
  - (* references *) intros s1 s2 B U A. cbn [build v8_build v8_size].
    assert (I : id < m) by (apply B; left; reflexivity). destruct (alike_log s1 s2 id A I) as [-> ->]. rewrite <- (proj1 A).
    destruct (id <? L s2); [|reflexivity]. destruct (nth_error (ds_log s2) (N.to_nat id)) as [x|]; [|reflexivity].
    destruct v as [v|].
    + destruct x; try reflexivity. destruct (nth_error (ds_heap s1) oid) as [x|]; [|reflexivity].
      destruct (is_buffer x); [|reflexivity]. apply alike_view. exact A.
    + assert (G : outcome (L s2 + view_ids None) (Ok (x, s1)) (Ok (x, s2))) by (cbn [outcome view_ids]; split; [reflexivity|]; split; [exact A|lia]).
      destruct x; exact G.
  - (* shared objects *) intros s1 s2 B U A. cbn [build v8_build v8_size].
    destruct (alike_alloc_rec (OSharedRef id) s1 s2 A) as (i & t1 & t2 & -> & -> & A' & Lt). cbn [outcome]. auto.
  - (* host objects *) intros s1 s2 B U A. cbn [build v8_build v8_size unnumbered] in *.
    destruct (c_host cfg); [|reflexivity]. destruct (node_format code) as [vt|]; [|reflexivity].
    assert (M : m <= L s2) by (apply U; left; reflexivity).
    destruct (alike_alloc (OBuffer (mkBuf d (zlen d) false false)) s1 s2 A) as [Ef As].
    unfold alloc_rec, alloc in *. cbn [fst snd ds_heap ds_log] in *.
    destruct (alike_alloc (OView (length (ds_heap s1)) (mkView vt 0 None false)) _ _ As) as [Ef' As']. unfold alloc in *. cbn [fst snd ds_heap ds_log] in *.
    cbn [outcome]. rewrite Ef in *. split; [f_equal; exact Ef'|]. rewrite log_record. cbn [ds_log]. split; [|reflexivity].
    apply alike_skip; [exact As'|exact M].
  - split; intros; cbn [build_members v8_build_members build_elems v8_build_elems outcome v8_size_vals]; (split; [reflexivity|]; split; [assumption|lia]).
  - destruct H0 as [H1 H2]. split; intros; cbn [referenced_vals unnumbered_vals] in *;
      cbn [build_members v8_build_members build_elems v8_build_elems v8_size_vals].
    + apply below_app in H0 as [B1 B2]. apply above_app in H3 as [U1 U2].
      eapply outcome_bind; [apply H; [exact B1|exact U1|assumption]|]. intros x t1 t2 A2 L2.
      destruct (put_member acc x) as [acc'|e]; cbn [bind]; [|reflexivity].
      replace (L s2 + (v8_size w + v8_size_vals r)) with (L t2 + v8_size_vals r) by lia.
      apply H1; [exact B2|rewrite L2; exact U2|exact A2].
    + apply below_app in H0 as [B1 B2]. apply above_app in H3 as [U1 U2].
      eapply outcome_bind; [apply H; [exact B1|exact U1|assumption]|]. intros x t1 t2 A2 L2.
      destruct (put cfg acc (VInt (Z.of_N i)) x) as [acc'|e]; cbn [bind]; [|reflexivity].
      replace (L s2 + (v8_size w + v8_size_vals r)) with (L t2 + v8_size_vals r) by lia.
      apply H2; [exact B2|rewrite L2; exact U2|exact A2].
  - intros acc s1 s2 B U A. cbn [build_pairs v8_build_pairs outcome v8_size_pairs]. split; [reflexivity|]. split; [exact A|lia].
  - intros acc s1 s2 B U A. cbn [referenced_pairs unnumbered_pairs] in *. cbn [build_pairs v8_build_pairs v8_size_pairs].
    apply below_app in B as [B1 B2]. apply below_app in B2 as [B2 B3]. apply above_app in U as [U1 U2]. apply above_app in U2 as [U2 U3].
    eapply outcome_bind; [apply H; [exact B1|exact U1|exact A]|]. intros x t1 t2 A2 L2.
    eapply outcome_bind; [apply H0; [exact B2|rewrite L2; exact U2|exact A2]|]. intros y u1 u2 A3 L3.
    destruct (put cfg acc x y) as [acc'|e]; cbn [bind]; [|reflexivity].
    replace (L s2 + (v8_size k + v8_size v + v8_size_pairs r)) with (L u2 + v8_size_pairs r) by lia.
    apply H1; [exact B3|rewrite L3, L2; exact U3|exact A3].
Qed.
End Facts.

(** A bound between the references and the first object that only V8 numbers. *)
Lemma between (l u : list N) : (forall a b, In a l -> In b u -> a < b) -> exists m, (forall a, In a l -> a < m) /\ (forall b, In b u -> m <= b).
Proof.
  intros H. exists (fold_right N.max 0 (map N.succ l)). split.
  - clear H. induction l as [|x l IH]; [intros a []|]. cbn [map fold_right]. intros a [<-|I]; [lia|]. specialize (IH a I). lia.
  - intros b I. induction l as [|x l IH]; cbn [map fold_right]; [lia|].
    assert (x < b) by (apply H; [left; reflexivity|exact I]).
    assert (fold_right N.max 0 (map N.succ l) <= b) by (apply IH; intros; apply H; [right|]; assumption). lia.
Qed.
Lemma build_v8 cfg w : refers_before w ->
  match build cfg w ds_empty, v8_graph cfg w with
  | Ok (v, st), Ok (v', h) => v = v' /\ ds_heap st = h
  | Err e, Err e' => e = e'
  | _, _ => False
  end.
Proof.
  intros R. destruct (between _ _ R) as (m & B & U).
  assert (A : alike m ds_empty ds_empty) by (split; [reflexivity|left; reflexivity]).
  pose proof (proj1 (build_same cfg m) w ds_empty ds_empty B U A) as O. unfold v8_graph, outcome in *.
  destruct (build cfg w ds_empty) as [[v st]|e], (v8_build cfg w ds_empty) as [[v' st']|e']; cbn [bind]; try contradiction; auto.
  destruct O as (<- & [Hh _] & _). auto.
Qed.
