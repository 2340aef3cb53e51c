(** C84: keys() and items() of a JSMap are sets. *)
From Coq Require Import List NArith ZArith Bool Lia.
From Verif Require Import Base Dict SpecNumber ModelValue ValueFacts SpecKey KeyFacts SpecMap ModelMap MapFacts ModelHeap ModelEncode HashFacts ModelEq ModelMixedEq ModelPyEq ModelSetOps Prop_SetOps ModelMapViews SpecMapViews MapViewFacts.
Import ListNotations.
Open Scope Z_scope.

(** <=, <, == and isdisjoint between the keys() of two maps compare the sets of keys, up to JavaScript's equality and whatever the order. *)
Theorem C84_keys_compare : forall V bytes_of (a b : jsmap V), made_map bytes_of a -> made_map bytes_of b ->
  exists le lt eq dj,
    keys_le bytes_of a b = Ok le /\ (le = true <-> forall k, has_key bytes_of a k -> has_key bytes_of b k) /\
    keys_eq bytes_of a b = Ok eq /\ (eq = true <-> forall k, has_key bytes_of a k <-> has_key bytes_of b k) /\
    keys_lt bytes_of a b = Ok lt /\ (lt = true <-> le = true /\ eq = false) /\
    keys_isdisjoint bytes_of a b = Ok dj /\ (dj = true <-> forall k, ~ (has_key bytes_of a k /\ has_key bytes_of b k)).
Proof.
  intros V bytes_of a b MA MB. pose proof (map_inv bytes_of a MA) as A. pose proof (map_inv bytes_of b MB) as B.
  destruct (keys_le_spec bytes_of a b A B) as (x & E & X).
  destruct (none_in_map bytes_of a (jm_iter b) A (fun k => iter_tame bytes_of b k B)) as (dj & F & DJ).
  assert (XK : x = true <-> forall k, has_key bytes_of a k -> has_key bytes_of b k).
  { rewrite X. split; intros H k; specialize (H k); rewrite !has_key_mem in *; exact H. }
  assert (DK : dj = true <-> forall k, ~ (has_key bytes_of a k /\ has_key bytes_of b k)).
  { rewrite DJ. split; intros H k; specialize (H k); rewrite !has_key_mem in *; tauto. }
  assert (LE : forall c d : jsmap V, cinv bytes_of fst c -> (forall k, has_key bytes_of c k -> has_key bytes_of d k) -> jm_len c <= jm_len d).
  { intros c d IC H. rewrite !len_iter. apply inj_le. apply (subset_length bytes_of); [apply iter_distinct, IC|]. intros v. specialize (H v). rewrite !has_key_mem in H. exact H. }
  assert (EQ : forall e, (e = true <-> x = true /\ jm_len a = jm_len b) -> (e = true <-> forall k, has_key bytes_of a k <-> has_key bytes_of b k)).
  { intros e HE. rewrite HE. split.
    - intros (T & L) k. split; [apply XK; exact T|]. rewrite !has_key_mem. apply (same_size bytes_of).
      + apply iter_distinct, A.
      + rewrite !len_iter in L. apply Nat2Z.inj. exact L.
      + apply X. exact T.
    - intros H. split; [apply XK; intros k; apply H|]. apply Z.le_antisymm; apply LE; auto; intros k; apply H. }
  exists x, (if jm_len a <? jm_len b then x else false), (if jm_len a =? jm_len b then x else false), dj.
  split; [exact E|]. split; [exact XK|]. split; [unfold keys_eq; destruct (jm_len a =? jm_len b); [exact E|reflexivity]|].
  split; [apply EQ; destruct (Z.eqb_spec (jm_len a) (jm_len b)); [tauto|split; [discriminate|intros (_ & L); contradiction]]|].
  split; [unfold keys_lt; destruct (jm_len a <? jm_len b); [exact E|reflexivity]|]. split; [|split; [exact F|exact DK]].
  destruct x.
  - assert (L : jm_len a <= jm_len b) by (apply LE; [exact A|apply XK; reflexivity]).
    destruct (Z.ltb_spec (jm_len a) (jm_len b)), (Z.eqb_spec (jm_len a) (jm_len b)); split; auto; intros; try lia; try discriminate.
  - destruct (jm_len a <? jm_len b); split; [discriminate|intros (H & _); discriminate|discriminate|intros (H & _); discriminate].
Qed.
Print Assumptions C84_keys_compare.

(** (k, v) in items(): the key k has an equal value. items() are equal when the keys are the same and have equal values. *)
Theorem C84_items : forall V bytes_of veq (a b : jsmap V), made_map bytes_of a -> made_map bytes_of b ->
  (forall k v, ~ huge k -> exists x, items_contains bytes_of veq a (k, v) = Ok x /\ (x = true <-> exists w, has_item bytes_of a k w /\ veq w v = true)) /\
  exists eq, items_eq bytes_of veq a b = Ok eq /\
    (eq = true <-> (forall k, has_key bytes_of a k <-> has_key bytes_of b k) /\
                   forall k v w, has_item bytes_of a k v -> has_item bytes_of b k w -> veq w v = true).
Proof.
  intros V bytes_of veq a b MA MB. pose proof (map_inv bytes_of a MA) as A. pose proof (map_inv bytes_of b MB) as B.
  assert (C : forall (m : jsmap V), cinv bytes_of fst m -> forall k v, ~ huge k ->
    exists x, items_contains bytes_of veq m (k, v) = Ok x /\ (x = true <-> exists w, has_item bytes_of m k w /\ veq w v = true)).
  { intros m IM k v T. pose proof (get_spec bytes_of m k IM T) as G. unfold items_contains. cbn [fst snd]. destruct (jm_get bytes_of m k) as [w|e].
    - exists (veq w v). split; [reflexivity|]. split; [intros E; exists w; auto|]. intros (w' & H & E). rewrite (item_unique bytes_of m k w w' IM G H). exact E.
    - destruct G as (-> & N). exists false. split; [reflexivity|]. split; [discriminate|]. intros (w & (k' & I & S') & _). exfalso. apply N. exists k', w. auto. }
  split; [exact (C a A)|].
  assert (L : forall l, (forall k v, In (k, v) l -> ~ huge k) -> exists x, all_items_in (items_contains bytes_of veq b) l = Ok x /\
    (x = true <-> forall k v, In (k, v) l -> exists w, has_item bytes_of b k w /\ veq w v = true)).
  { induction l as [|(k & v) l IH]; intros T; cbn [all_items_in].
    - exists true. split; [reflexivity|]. split; [intros _ k v []|reflexivity].
    - destruct (C b B k v (T k v (or_introl eq_refl))) as (x & E & X). rewrite E. cbn [bind]. destruct x.
      + destruct IH as (y & E2 & Y); [intros k' v' I; apply (T k' v'); right; exact I|]. exists y. split; [exact E2|]. rewrite Y. split.
        * intros H k' v' [J|I]; [injection J as <- <-; apply X; reflexivity|apply H; exact I].
        * intros H k' v' I. apply H. right. exact I.
      + exists false. split; [reflexivity|]. split; [discriminate|]. intros H. apply X. apply (H k v). left. reflexivity. }
  assert (IT : jm_items bytes_of a = Ok (map snd a)) by (exact (jm_items_of_spec bytes_of a a A (incl_refl a))).
  assert (TA : forall k v, In (k, v) (map snd a) -> ~ huge k).
  { intros k v I. apply (iter_tame bytes_of a k A). rewrite iter_fst. apply in_map_iff. exists (k, v). auto. }
  destruct (L (map snd a) TA) as (x & E & X). unfold items_eq. rewrite IT. cbn [bind]. rewrite E.
  exists (if jm_len a =? jm_len b then x else false). split; [destruct (jm_len a =? jm_len b); reflexivity|].
  destruct (C84_keys_compare V bytes_of a b MA MB) as (le & lt & eq & dj & E1 & X1 & E2 & X2 & _).
  assert (RT : x = true <-> (forall k, has_key bytes_of a k -> has_key bytes_of b k) /\
                   forall k v w, has_item bytes_of a k v -> has_item bytes_of b k w -> veq w v = true).
  { rewrite X. split.
    - intros H. split.
      + intros k (k' & v & I & S'). destruct (H k' v I) as (w & (k2 & I2 & S2) & _). exists k2, w. split; [exact I2|]. eapply same_trans; [exact S2|exact S'].
      + intros k v w (k' & I & S') (k2 & I2 & S2). destruct (H k' v I) as (w' & HI & Q). replace w with w'; [exact Q|].
        apply (item_unique bytes_of b k' w' w B HI). exists k2. split; [exact I2|]. eapply same_trans; [exact S2|apply same_sym; exact S'].
    - intros (H1 & H2) k v I. destruct (H1 k) as (k2 & w & I2 & S2); [exists k, v; split; [exact I|apply same_refl]|].
      exists w. assert (HB : has_item bytes_of b k w) by (exists k2; auto). split; [exact HB|]. apply (H2 k v w); [|exact HB]. exists k. split; [exact I|apply same_refl]. }
  unfold keys_eq in E2. rewrite E1 in E2. destruct (Z.eqb_spec (jm_len a) (jm_len b)) as [LN|LN].
  - injection E2 as <-. rewrite RT. split; [|intros (H1 & H2); split; [intros k; apply H1|exact H2]].
    intros (H1 & H2). split; [|exact H2]. apply X2. apply X1. exact H1.
  - injection E2 as <-. split; [discriminate|]. intros (H1 & _). apply X2 in H1. discriminate.
Qed.
Print Assumptions C84_items.

(** & | - ^ of the keys() of two maps give the Python set of the keys in both, either, the first only, one only; each once. Missing: keys that are
    unhashable or that Python's == does not compare as JavaScript does (C84_merged_refuted, C84_unhashable_refuted). *)
Theorem C84_operators_partial : forall V K bytes_of keqb (dict_key : val -> option K) (a b : jsmap V), (forall x y, keqb x y = true <-> x = y) ->
  made_map bytes_of a -> made_map bytes_of b -> agreeing bytes_of dict_key (jm_iter a ++ jm_iter b) ->
  exists s1 s2 s3 s4, keys_and bytes_of keqb dict_key a b = Ok s1 /\ keys_or keqb dict_key a b = Ok s2 /\
    keys_sub bytes_of keqb dict_key a b = Ok s3 /\ keys_xor bytes_of keqb dict_key a b = Ok s4 /\
    (forall s, In s [s1; s2; s3; s4] -> distinct_members bytes_of s) /\
    forall k, (member bytes_of s1 k <-> has_key bytes_of a k /\ has_key bytes_of b k) /\
              (member bytes_of s2 k <-> has_key bytes_of a k \/ has_key bytes_of b k) /\
              (member bytes_of s3 k <-> has_key bytes_of a k /\ ~ has_key bytes_of b k) /\
              (member bytes_of s4 k <-> has_key bytes_of a k /\ ~ has_key bytes_of b k \/ has_key bytes_of b k /\ ~ has_key bytes_of a k).
Proof.
  intros V K bytes_of keqb dict_key a b KE MA MB G. pose proof (map_inv bytes_of a MA) as A. pose proof (map_inv bytes_of b MB) as B.
  pose proof (fun k => iter_tame bytes_of a k A) as TA. pose proof (fun k => iter_tame bytes_of b k B) as TB.
  destruct (select_map bytes_of a (jm_iter b) A TB) as (r1 & R1 & W1).
  destruct (select_not_map bytes_of b (jm_iter a) B TA) as (r3 & R3 & W3).
  destruct (select_not_map bytes_of a (jm_iter b) A TB) as (r5 & R5 & W5).
  assert (IA : incl (jm_iter a) (jm_iter a ++ jm_iter b)) by (intros x I; apply in_or_app; auto).
  assert (IB : incl (jm_iter b) (jm_iter a ++ jm_iter b)) by (intros x I; apply in_or_app; auto).
  assert (I1 : incl r1 (jm_iter a ++ jm_iter b)) by (intros x I; exact (IB x (where_incl _ _ _ W1 x I))).
  assert (I3 : incl r3 (jm_iter a ++ jm_iter b)) by (intros x I; exact (IA x (where_incl _ _ _ W3 x I))).
  assert (I5 : incl r5 (jm_iter a ++ jm_iter b)) by (intros x I; exact (IB x (where_incl _ _ _ W5 x I))).
  destruct (pyset_spec bytes_of keqb dict_key KE r1 (agreeing_sub _ _ _ _ G I1)) as (s1 & E1 & D1 & M1 & _).
  destruct (pyset_spec bytes_of keqb dict_key KE _ G) as (s2 & E2 & D2 & M2 & _).
  destruct (pyset_spec bytes_of keqb dict_key KE r3 (agreeing_sub _ _ _ _ G I3)) as (s3 & E3 & D3 & M3 & J3).
  destruct (pyset_spec bytes_of keqb dict_key KE r5 (agreeing_sub _ _ _ _ G I5)) as (s5 & E5 & D5 & M5 & J5).
  destruct (pyset_spec bytes_of keqb dict_key KE (s3 ++ s5)) as (s4 & E4 & D4 & M4 & _).
  { apply (agreeing_sub _ _ _ _ G). intros x I. apply in_app_or in I as [I|I]; [exact (I3 x (J3 x I))|exact (I5 x (J5 x I))]. }
  exists s1, s2, s3, s4. unfold keys_and, keys_or, keys_xor, keys_sub. rewrite R1, R3, R5. cbn [bind]. rewrite E3, E5. cbn [bind].
  do 4 (split; [first [assumption|reflexivity]|]). split; [intros s [<-|[<-|[<-|[<-|[]]]]]; assumption|].
  intros k. pose proof (has_key_mem bytes_of a k) as HA. pose proof (has_key_mem bytes_of b k) as HB.
  assert (P1 : member bytes_of s1 k <-> member bytes_of (jm_iter b) k /\ member bytes_of (jm_iter a) k)
    by (rewrite M1; apply (where_mem bytes_of); [intros y z; apply mem_closed|exact W1]).
  assert (P3 : member bytes_of s3 k <-> member bytes_of (jm_iter a) k /\ ~ member bytes_of (jm_iter b) k)
    by (rewrite M3; apply (where_mem bytes_of (fun v => ~ member bytes_of (jm_iter b) v)); [intros y z; apply mem_not_closed|exact W3]).
  assert (P5 : member bytes_of s5 k <-> member bytes_of (jm_iter b) k /\ ~ member bytes_of (jm_iter a) k)
    by (rewrite M5; apply (where_mem bytes_of (fun v => ~ member bytes_of (jm_iter a) v)); [intros y z; apply mem_not_closed|exact W5]).
  rewrite M4, M2, !mem_app. tauto.
Qed.
Print Assumptions C84_operators_partial.

(** Keys that JavaScript keeps apart and Python does not, such as 1 and True, are merged: of the map {1: None, true: None}, keys() | keys() has lost true. *)
Theorem C84_merged_refuted : exists a : jsmap val, made_map (heap_bytes []) a /\ jm_iter a = [VInt 1; VBool true] /\
  keys_or hkey_eqb (dict_key []) a a = Ok [VInt 1] /\ has_key (heap_bytes []) a (VBool true) /\ ~ member (heap_bytes []) [VInt 1] (VBool true).
Proof.
  eexists. split; [exists [KSet (VInt 1) VNone; KSet (VBool true) VNone]; eexists; vm_compute; reflexivity|].
  split; [reflexivity|]. split; [vm_compute; reflexivity|]. split.
  - exists (VBool true), VNone. split; [right; left; reflexivity|apply same_refl].
  - intros (y & [<-|[]] & SM). exact SM.
Qed.
Print Assumptions C84_merged_refuted.
(** A key that Python cannot hash, such as a JSObject, makes the operators raise TypeError. *)
Theorem C84_unhashable_refuted : exists (H : heap) (a : jsmap val), made_map (heap_bytes H) a /\ jm_iter a = [VRef 0] /\ keys_or hkey_eqb (dict_key H) a a = Err EType /\
  keys_and (heap_bytes H) hkey_eqb (dict_key H) a a = Err EType.
Proof.
  exists [ODict []]. eexists. split; [exists [KSet (VRef 0) VNone]; eexists; vm_compute; reflexivity|]. split; [reflexivity|]. split; vm_compute; reflexivity.
Qed.
Print Assumptions C84_unhashable_refuted.
(** keys() - [1] removes true: a list is made a Python set first. *)
Theorem C84_iterable_refuted : exists a : jsmap val, made_map (heap_bytes []) a /\ has_key (heap_bytes []) a (VBool true) /\
  ~ member (heap_bytes []) [VInt 1] (VBool true) /\ keys_sub_iterable hkey_eqb (dict_key []) a [VInt 1] = Ok [].
Proof.
  eexists. split; [exists [KSet (VBool true) VNone]; eexists; vm_compute; reflexivity|]. split.
  - exists (VBool true), VNone. split; [left; reflexivity|apply same_refl].
  - split; [|vm_compute; reflexivity]. intros (y & [<-|[]] & SM). exact SM.
Qed.
Print Assumptions C84_iterable_refuted.
(** Maps that are equal by == may have unequal keys() and items(): their keys are equal objects, not the same ones. *)
Theorem C84_equal_maps_refuted : exists (H : heap) (a b : jsmap val), nth_error H 0 = Some (OMap a) /\ nth_error H 1 = Some (OMap b) /\
  made_map (heap_bytes H) a /\ made_map (heap_bytes H) b /\
  (forall cast32 widen py312, equals cast32 widen py312 H 0 (VRef 0) (VRef 1) [] = (Returned true, [])) /\
  keys_eq (heap_bytes H) a b = Ok false /\ items_eq (heap_bytes H) (fun _ _ => true) a b = Ok false.
Proof.
  pose (mk := fun o => match jm_set (V := val) (fun _ => None) [] (VRef o) VNone with Ok m => m | Err _ => [] end).
  exists [OMap (mk 2%nat); OMap (mk 3%nat); ORegExp [97%N] 0%N; ORegExp [97%N] 0%N], (mk 2%nat), (mk 3%nat).
  split; [reflexivity|]. split; [reflexivity|].
  split; [exists [KSet (VRef 2) VNone]; eexists; vm_compute; reflexivity|]. split; [exists [KSet (VRef 3) VNone]; eexists; vm_compute; reflexivity|].
  split; [intros; vm_compute; reflexivity|]. split; vm_compute; reflexivity.
Qed.
Print Assumptions C84_equal_maps_refuted.

(** {"a": 1, 2: 3} and {2.0: 3, "b": None}: 2 is in both. *)
Example C84_case : exists a b : jsmap val, made_map (heap_bytes []) a /\ made_map (heap_bytes []) b /\
  jm_iter a = [VStr [97%N]; VInt 2] /\ jm_iter b = [VFloat 0x4000000000000000%N; VStr [98%N]] /\
  agreeing (heap_bytes []) (dict_key []) (jm_iter a ++ jm_iter b) /\ (forall x y, hkey_eqb x y = true <-> x = y) /\
  keys_and (heap_bytes []) hkey_eqb (dict_key []) a b = Ok [VFloat 0x4000000000000000%N] /\
  keys_xor (heap_bytes []) hkey_eqb (dict_key []) a b = Ok [VStr [97%N]; VStr [98%N]].
Proof.
  do 2 eexists. split; [exists [KSet (VStr [97%N]) (VInt 1); KSet (VInt 2) (VInt 3)]; eexists; vm_compute; reflexivity|].
  split; [exists [KSet (VFloat 0x4000000000000000%N) (VInt 3); KSet (VStr [98%N]) VNone]; eexists; vm_compute; reflexivity|].
  split; [reflexivity|]. split; [reflexivity|]. split; [|split; [exact hkey_eqb_spec|split; vm_compute; reflexivity]].
  split.
  - intros x I. cbn in I. destruct I as [<-|[<-|[<-|[<-|[]]]]]; vm_compute; discriminate.
  - intros x y I J. cbn in I, J. destruct I as [<-|[<-|[<-|[<-|[]]]]], J as [<-|[<-|[<-|[<-|[]]]]].
    all: try (split; [intros _; apply same_refl|reflexivity]).
    all: try (split; [vm_compute; discriminate|intros F; exfalso; (discriminate F || exact F)]).
    all: split; [intros _; vm_compute; reflexivity|intros _; vm_compute; reflexivity].
Qed.
