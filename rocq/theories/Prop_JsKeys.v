(** C79: JavaScript's Maps and Sets keep all their entries. *)
From Coq Require Import List NArith ZArith Bool Lia ZifyBool ZifyNat ZifyN.
From Verif Require Import Base Dict ModelTags ModelPrim SpecPrim SpecNumber SpecArray ModelArray ModelValue SpecKey SpecObject ModelObject SpecObjectUse ModelObjectUse
  SpecMap ModelMap ModelBuffer ModelHeap SpecWire ModelDecode SpecBuild DecodeSound SpecContents ContentsFacts Prop_Decode Prop_Contents ContainersFacts2 Prop_SetOps SpecJsKeys.
Import ListNotations.
Open Scope Z_scope.
Notation same := (js_same no_bytes).

(** ** Assigning entries one after the other *)
Lemma put_entry_length (l : list (val * val)) k v l' : put_entry no_bytes l k v l' -> (length l' <= S (length l))%nat /\
  (length l' = S (length l) -> absent no_bytes l k /\ l' = l ++ [(k, v)]).
Proof.
  intros [a k' v' b -> S|A]; rewrite ?app_length; cbn [length]; split; try lia; auto.
Qed.
Lemma put_entries_length l items l' : put_entries (V := val) no_bytes l items l' -> (length l' <= length l + length items)%nat.
Proof. induction 1 as [|l k v r l1 l2 _ P _ IH]; cbn [length]; [lia|]. apply put_entry_length in P. lia. Qed.
Lemma put_entries_all l items l' : put_entries (V := val) no_bytes l items l' ->
  length l' = (length l + length items)%nat -> l' = l ++ items.
Proof.
  induction 1 as [|l k v r l1 l2 _ P Q IH]; cbn [length]; intros E; [rewrite app_nil_r; reflexivity|].
  pose proof (put_entries_length _ _ _ Q). destruct (put_entry_length _ _ _ _ P) as [L A].
  destruct A as [_ ->]; [lia|]. rewrite app_length in *. cbn [length] in *. rewrite IH by lia. rewrite <- app_assoc. reflexivity.
Qed.
Lemma put_entries_distinct l items l' : put_entries (V := val) no_bytes l items l' ->
  (forall i j a b, nth_error (l ++ items) i = Some a -> nth_error (l ++ items) j = Some b -> (i < j)%nat -> ~ same (fst a) (fst b)) ->
  l' = l ++ items.
Proof.
  induction 1 as [|l k v r l1 l2 _ P Q IH]; intros D; [rewrite app_nil_r; reflexivity|].
  assert (l1 = l ++ [(k, v)]) as ->.
  { destruct P as [a k' v' b -> Sm|A]; [|reflexivity]. exfalso. rewrite <- app_assoc in D.
    apply (D (length a) (length a + S (length b))%nat (k', v') (k, v)); [..|lia|exact Sm].
    - rewrite nth_error_app2, Nat.sub_diag by lia. reflexivity.
    - rewrite nth_error_app2 by lia. replace (length a + S (length b) - length a)%nat with (S (length b)) by lia. cbn [app nth_error].
      rewrite nth_error_app2, Nat.sub_diag by lia. reflexivity. }
  rewrite <- app_assoc in IH. cbn [app] in IH. apply IH, D.
Qed.
Lemma put_entries_absent l items l' : put_entries (V := val) no_bytes l items l' -> length l' = (length l + length items)%nat ->
  forall i j a b, nth_error (l ++ items) i = Some a -> nth_error (l ++ items) j = Some b -> (i < j)%nat -> (length l <= j)%nat -> ~ same (fst a) (fst b).
Proof.
  induction 1 as [|l k v r l1 l2 _ P Q IH]; cbn [length]; intros E i j a b A B Lt Le.
  - exfalso. assert (j < length (l ++ []))%nat by (apply nth_error_Some; congruence). rewrite app_nil_r in *. lia.
  - pose proof (put_entries_length _ _ _ Q) as LQ. destruct (put_entry_length _ _ _ _ P) as [L1 Ab]. destruct Ab as [Ab ->]; [lia|].
    rewrite app_length in *. cbn [length] in *.
    destruct (Nat.eq_dec j (length l)) as [->|Ne].
    + rewrite nth_error_app2, Nat.sub_diag in B by lia. injection B as <-. rewrite nth_error_app1 in A by lia. cbn [fst].
      destruct a as [k' v']. apply (Ab k' v'). eapply nth_error_In; eauto.
    + replace (l ++ (k, v) :: r) with ((l ++ [(k, v)]) ++ r) in A, B by (rewrite <- app_assoc; reflexivity).
      apply (IH ltac:(lia) i j a b A B Lt). lia.
Qed.
Lemma pairwise_ordered {T} (R : T -> T -> Prop) (l : list T) : (forall a b, R a b -> R b a) ->
  (forall i j a b, nth_error l i = Some a -> nth_error l j = Some b -> (i < j)%nat -> R a b) <-> pairwise R l.
Proof.
  intros S. split; intros H i j a b A B N; [|apply (H i j); auto; lia].
  destruct (Nat.lt_total i j) as [L|[L|L]]; [eauto|contradiction|]. apply S. eauto.
Qed.
Lemma differ_sym (a b : val * val) : ~ same (fst a) (fst b) -> ~ same (fst b) (fst a).
Proof. intros N S. apply N, same_sym, S. Qed.

(** The members of a set are the keys of entries. *)
Definition unit_entry (k : val) : val * val := (k, VNone).
Lemma add_put l ks l' : add_members no_bytes l ks l' -> put_entries (V := val) no_bytes (map unit_entry l) (map unit_entry ks) (map unit_entry l').
Proof.
  induction 1 as [|l k r l1 l2 Hk A _ IH]; cbn [map]; [constructor|]. refine (puts_cons _ _ _ _ _ _ _ Hk _ IH).
  destruct A as [a k' b -> S|A].
  - rewrite !map_app. cbn [map]. eapply (put_replace no_bytes _ k VNone (map unit_entry a) k' VNone (map unit_entry b)); [reflexivity|exact S].
  - rewrite map_app. apply put_append. intros k' v' I. apply in_map_iff in I as (y & E & I). injection E as <- <-. apply A. exact I.
Qed.

(** ** The values *)
Definition decodes (j : jsvalue) (v : val) : Prop :=
  match j with
  | JsNumber x => number_of v = Some x
  | JsBigInt z => v = VInt z
  | JsString s => v = VStr s
  | JsConst t => In t [kTheHole; kUndefined; kNull; kTrue; kFalse] /\ v = default_const t
  | JsObject o => v = VRef o
  end.
Definition plain_consts (cfg : dcfg) : Prop := forall t, c_const cfg t = default_const t.
Lemma build_decodes cfg w st v st' j : plain_consts cfg -> build cfg w st = Ok (v, st') -> js_value w v j -> decodes j v.
Proof.
  intros PC B V. destruct V; cbn [build decodes] in *; try (injection B as <- _; reflexivity); try reflexivity.
  injection B as <- _. split; [assumption|apply PC].
Qed.
Lemma consts_differ t u : In t [kTheHole; kUndefined; kNull; kTrue; kFalse] -> In u [kTheHole; kUndefined; kNull; kTrue; kFalse] ->
  default_const t = default_const u -> t = u.
Proof.
  intros A B. cbn [In] in A, B. repeat (destruct A as [<-|A]; [repeat (destruct B as [<-|B]; [cbn; congruence|]); contradiction|]). contradiction.
Qed.
Lemma consts_other t : number_of (default_const t) = None.
Proof. destruct t; reflexivity. Qed.
Lemma consts_shape t : match default_const t with VStr _ | VRef _ => False | _ => True end.
Proof. destruct t; exact I. Qed.
Lemma same_other a b : number_of a = None -> number_of b = None -> same a b -> a = b.
Proof.
  unfold js_same. intros -> ->. destruct a, b; auto. intros [->|(c & X & _)]; [reflexivity|discriminate X].
Qed.
Lemma same_mixed a b x : number_of a = Some x -> number_of b = None -> ~ same a b.
Proof. unfold js_same. intros -> ->. auto. Qed.
Lemma same_nums' a b x y : number_of a = Some x -> number_of b = Some y -> same a b -> same_number x y.
Proof. unfold js_same. intros -> ->. auto. Qed.
Definition js_number (j : jsvalue) : option number :=
  match j with JsNumber x => Some x | JsBigInt z => Some (Finite z 0) | _ => None end.
Lemma decodes_number j v : decodes j v -> number_of v = js_number j.
Proof. destruct j; cbn [decodes js_number]; auto; try (intros ->; reflexivity). intros [_ ->]. apply consts_other. Qed.
Lemma decodes_differ a b v u : decodes a v -> decodes b u -> ~ js_equal a b -> ~ clash a b -> ~ clash b a -> ~ same v u.
Proof.
  intros A B N C1 C2 Sm. pose proof (decodes_number _ _ A) as NA. pose proof (decodes_number _ _ B) as NB.
  destruct (js_number a) as [x|] eqn:Ja, (js_number b) as [y|] eqn:Jb.
  - pose proof (same_nums' _ _ _ _ NA NB Sm) as X. destruct a, b; try discriminate; injection Ja as <-; injection Jb as <-; cbn [js_equal clash] in *; auto.
    + apply C1, same_number_sym, X.
    + apply N. cbn [same_number] in X. unfold same_value in X. cbn [Z.min Z.sub Z.opp Z.add Z.compare] in X. lia.
  - exact (same_mixed _ _ _ NA NB Sm).
  - apply same_sym in Sm. exact (same_mixed _ _ _ NB NA Sm).
  - apply (same_other _ _ NA NB) in Sm. subst u.
    destruct a as [| |s|t|o]; try discriminate Ja; destruct b as [| |s'|t'|o']; try discriminate Jb; cbn [decodes js_equal] in *;
      try (apply N; congruence); try congruence.
    1: destruct B as [_ B]; pose proof (consts_shape t') as Q; rewrite <- B, A in Q; exact Q.
    1: destruct A as [_ A]; pose proof (consts_shape t) as Q; rewrite <- A, B in Q; exact Q.
    2: destruct A as [_ A]; pose proof (consts_shape t) as Q; rewrite <- A, B in Q; exact Q.
    2: destruct B as [_ B]; pose proof (consts_shape t') as Q; rewrite <- B, A in Q; exact Q.
    destruct A as [A1 A2], B as [B1 B2]. apply N. apply consts_differ; auto; congruence.
Qed.
Lemma values_differ js vs : Forall2 decodes js vs -> pairwise (fun a b => ~ js_equal a b) js -> pairwise (fun a b => ~ clash a b) js ->
  pairwise (fun a b => ~ same a b) vs.
Proof.
  intros F D C i j a b A B N.
  assert (G : forall k v, nth_error vs k = Some v -> exists y, nth_error js k = Some y /\ decodes y v).
  { clear -F. induction F as [|y v l l' X F IH]; intros [|k] u E; try discriminate; cbn [nth_error] in *; [injection E as <-; eauto|auto]. }
  destruct (G _ _ A) as (x & X1 & X2). destruct (G _ _ B) as (y & Y1 & Y2).
  apply (decodes_differ x y); auto; [apply (D i j)|apply (C i j)|apply (C j i)]; auto.
Qed.

(** ** C79 *)
Lemma pairs_decode cfg ps st items st' js : plain_consts cfg -> pairs_read cfg ps st items st' -> js_values (wkeys ps) (map fst items) js ->
  Forall2 decodes js (map fst items).
Proof.
  intros PC R. revert js. induction R as [|k v r st kv st1 vv st2 l st3 B1 B2 R IH]; cbn [wkeys map fst]; intros js J; inversion J; subst; constructor; auto.
  eapply build_decodes; eauto.
Qed.
Lemma values_decode cfg vs st l st' js : plain_consts cfg -> values_read cfg vs st l st' -> js_values (wlist vs) l js -> Forall2 decodes js l.
Proof.
  intros PC R. revert js. induction R as [|w r st v st1 l st2 B1 R IH]; cbn [wlist]; intros js J; inversion J; subst; constructor; auto.
  eapply build_decodes; eauto.
Qed.
Lemma pairwise_map {A B} (f : A -> B) (R : B -> B -> Prop) l : pairwise R (map f l) <-> pairwise (fun a b => R (f a) (f b)) l.
Proof.
  split; intros H i j a b X Y N.
  - apply (H i j); auto; rewrite nth_error_map; [rewrite X|rewrite Y]; reflexivity.
  - rewrite nth_error_map in X, Y. destruct (nth_error l i) eqn:E1; [|discriminate]. destruct (nth_error l j) eqn:E2; [|discriminate].
    injection X as <-. injection Y as <-. eauto.
Qed.

(** A decoded Map has its entries [items], all of them and in their order, exactly if no two of the decoded keys are equal
    under same_value_zero; otherwise it has fewer. *)
Theorem C79_map_iff : forall cfg ps st m, filled cfg (WMap ps) st (OMap m) ->
  exists items st1 l, pairs_read cfg ps (begun (OMap []) st) items st1 /\ map_shows m l /\ (length l <= length items)%nat /\
    (length l = length items <-> pairwise (fun a b => ~ same (fst a) (fst b)) items) /\ (length l = length items -> l = items).
Proof.
  intros cfg ps st m F. inversion F as [| | |ps' st' items st1 l m' R P S|]; subst. exists items, st1, l.
  split; [exact R|]. split; [exact S|]. split; [apply put_entries_length in P; cbn [length] in P; lia|]. split.
  - rewrite <- (pairwise_ordered (fun a b : val * val => ~ same (fst a) (fst b)) items differ_sym). split.
    + intros E. pose proof (put_entries_absent _ _ _ P E) as Q. cbn [app length] in Q. intros i j a b A B L. apply (Q i j a b A B L). lia.
    + intros D. rewrite (put_entries_distinct [] items l P D). reflexivity.
  - intros E. apply (put_entries_all [] items l P). exact E.
Qed.
Print Assumptions C79_map_iff.
Theorem C79_set_iff : forall cfg vs st m, filled cfg (WSet vs) st (OSet m) ->
  exists members st1 l, values_read cfg vs (begun (OSet []) st) members st1 /\ set_shows m l /\ (length l <= length members)%nat /\
    (length l = length members <-> pairwise (fun a b => ~ same a b) members) /\ (length l = length members -> l = members).
Proof.
  intros cfg vs st m F. inversion F as [| | | |vs' st' members st1 l m' R P S]; subst. exists members, st1, l.
  apply add_put in P. cbn [map] in P.
  assert (D : pairwise (fun a b => ~ same a b) members <-> pairwise (fun a b : val * val => ~ same (fst a) (fst b)) (map unit_entry members)).
  { rewrite pairwise_map. reflexivity. }
  split; [exact R|]. split; [exact S|]. split; [apply put_entries_length in P; rewrite !map_length in P; cbn [length] in P; lia|].
  rewrite D, <- (pairwise_ordered (fun a b : val * val => ~ same (fst a) (fst b)) _ differ_sym). split; [split|].
  - intros E. assert (E' : length (map unit_entry l) = (length (@nil (val * val)) + length (map unit_entry members))%nat) by (rewrite !map_length; exact E).
    pose proof (put_entries_absent _ _ _ P E') as Q. cbn [app length] in Q. intros i j a b A B L. apply (Q i j a b A B L). lia.
  - intros X. pose proof (put_entries_distinct [] _ _ P X) as Q. apply (f_equal (@length _)) in Q.
    cbn [app] in Q. rewrite !map_length in Q. exact Q.
  - intros E. assert (E' : length (map unit_entry l) = (length (@nil (val * val)) + length (map unit_entry members))%nat) by (rewrite !map_length; exact E).
    pose proof (put_entries_all _ _ _ P E') as Q. cbn [app] in Q. apply (f_equal (map fst)) in Q. rewrite !map_map in Q. cbn [unit_entry fst] in Q.
    rewrite !map_id in Q. exact Q.
Qed.
Print Assumptions C79_set_iff.

(** Every Map and Set that loads returns, at any depth: if its keys are different in JavaScript, none is a wrapper object and no BigInt
    has the value of a Number among them, it has all its entries in their order. Missing: wrapper objects, and BigInts beside Numbers. *)
Theorem C79_loads_partial : forall cfg data v p h, plain_consts cfg -> bytes_ok data -> loads_at cfg data = Ok (v, p, h) ->
  exists w bs rest, data = bs ++ rest /\ document w bs /\
  (forall i m, nth_error h i = Some (OMap m) -> exists ps st items st1, part (WMap ps) w /\ i = length (ds_heap st) /\
     pairs_read cfg ps (begun (OMap []) st) items st1 /\
     forall js, js_values (wkeys ps) (map fst items) js -> pairwise (fun a b => ~ js_equal a b) js -> pairwise (fun a b => ~ clash a b) js ->
       map_shows m items) /\
  (forall i m, nth_error h i = Some (OSet m) -> exists vs st members st1, part (WSet vs) w /\ i = length (ds_heap st) /\
     values_read cfg vs (begun (OSet []) st) members st1 /\
     forall js, js_values (wlist vs) members js -> pairwise (fun a b => ~ js_equal a b) js -> pairwise (fun a b => ~ clash a b) js ->
       set_shows m members).
Proof.
  intros cfg data v p h PC B E. destruct (C65_loads cfg data v p h B E) as (w & bs & rest & D & W & A). exists w, bs, rest.
  split; [exact D|]. split; [exact W|]. split; intros i m X.
  - destruct (A i _ X I) as (c & st & P & IC & Ei & F). inversion F as [| | |ps st' items0 st1 l m' R _ S|]; subst.
    destruct (C79_map_iff _ _ _ _ F) as (items & st2 & l2 & R2 & S2 & _ & Q1 & Q2). exists ps, st, items, st2.
    split; [exact P|]. split; [reflexivity|]. split; [exact R2|]. intros js J N C.
    rewrite <- Q2; [exact S2|]. apply Q1. apply (pairwise_map fst (fun a b => ~ same a b) items).
    exact (values_differ js _ (pairs_decode _ _ _ _ _ _ PC R2 J) N C).
  - destruct (A i _ X I) as (c & st & P & IC & Ei & F). inversion F as [| | | |vs st' members0 st1 l m' R _ S]; subst.
    destruct (C79_set_iff _ _ _ _ F) as (members & st2 & l2 & R2 & S2 & _ & Q1 & Q2). exists vs, st, members, st2.
    split; [exact P|]. split; [reflexivity|]. split; [exact R2|]. intros js J N C.
    rewrite <- Q2; [exact S2|]. apply Q1. exact (values_differ js _ (values_decode _ _ _ _ _ _ PC R2 J) N C).
Qed.
Print Assumptions C79_loads_partial.

(** new Map([[1, "a"], [1n, "b"]]) is decoded as one entry, 1 -> "b". *)
Theorem C79_bigint_refuted : exists data h m, loads_at ex_cfg data = Ok (VRef 0, length data, h) /\ nth_error h 0 = Some (OMap m) /\
  map snd m = [(VInt 1, VStr [98%N])] /\
  data = ([255; 15; 59] ++ [73; 2; 34; 1; 97] ++ [90; 2; 1; 34; 1; 98] ++ [58; 4])%N.
Proof.
  eexists ([255; 15; 59] ++ [73; 2; 34; 1; 97] ++ [90; 2; 1; 34; 1; 98] ++ [58; 4])%N. do 2 eexists.
  split; [vm_compute; reflexivity|]. split; [vm_compute; reflexivity|]. split; [vm_compute; reflexivity|reflexivity].
Qed.
Print Assumptions C79_bigint_refuted.
(** new Set(["a", new String("a")]) is decoded as a set of one string. *)
Theorem C79_wrapper_refuted : exists data h m, loads_at ex_cfg data = Ok (VRef 0, length data, h) /\ nth_error h 0 = Some (OSet m) /\
  map snd m = [VStr [97%N]] /\
  data = ([255; 15; 39] ++ [34; 1; 97] ++ [115; 1; 97] ++ [44; 2])%N.
Proof.
  eexists ([255; 15; 39] ++ [34; 1; 97] ++ [115; 1; 97] ++ [44; 2])%N. do 2 eexists.
  split; [vm_compute; reflexivity|]. split; [vm_compute; reflexivity|]. split; [vm_compute; reflexivity|reflexivity].
Qed.
Print Assumptions C79_wrapper_refuted.
(** new Map([[1, "a"], ["1", "b"], [true, "c"], [2n, "d"]]) has different keys, and comes back with all of them. *)
Definition ex_pairs : wpairs :=
  PCons (WInt32 1) (WStr kOneByteString [97%N]) (PCons (WStr kOneByteString [49%N]) (WStr kOneByteString [98%N])
    (PCons (WConst kTrue) (WStr kOneByteString [99%N]) (PCons (WBigInt 2) (WStr kOneByteString [100%N]) PNil))).
Definition ex_items : list (val * val) :=
  [(VInt 1, VStr [97%N]); (VStr [49%N], VStr [98%N]); (VBool true, VStr [99%N]); (VInt 2, VStr [100%N])].
Definition ex_js : list jsvalue := [JsNumber (Finite 1 0); JsString [49%N]; JsConst kTrue; JsBigInt 2].
Example C79_case : plain_consts ex_cfg /\ pairs_read ex_cfg ex_pairs (begun (OMap []) ds_empty) ex_items (begun (OMap []) ds_empty) /\
  js_values (wkeys ex_pairs) (map fst ex_items) ex_js /\ pairwise (fun a b => ~ js_equal a b) ex_js /\ pairwise (fun a b => ~ clash a b) ex_js /\
  exists h m, loads_at ex_cfg ([255; 15; 59] ++ [73; 2; 34; 1; 97] ++ [34; 1; 49; 34; 1; 98] ++ [84; 34; 1; 99] ++ [90; 2; 2; 34; 1; 100] ++ [58; 8])%N =
    Ok (VRef 0, 26%nat, h) /\ nth_error h 0 = Some (OMap m) /\ map snd m = ex_items.
Proof.
  split; [intros t; reflexivity|]. split; [unfold ex_pairs, ex_items; repeat (eapply pr_cons; [reflexivity|reflexivity|]); constructor|].
  split; [unfold ex_pairs, ex_items, ex_js; cbn [wkeys map fst]; repeat apply jvs_cons;
    [apply jv_int32|apply jv_str; discriminate|apply jv_const; cbn [In]; auto|apply jv_bigint|apply jvs_nil]|].
  assert (N : forall z, same_number (Finite 1 0) (Finite z 0) -> z = 1).
  { intros z X. cbn [same_number] in X. unfold same_value in X. cbn [Z.min Z.sub Z.opp Z.add Z.compare] in X. lia. }
  split; [|split].
  - intros i j a b A B D X. unfold ex_js in A, B.
    do 4 (destruct i as [|i]; [do 4 (destruct j as [|j]; [first [contradiction|injection A as <-; injection B as <-; exact X]|]); destruct j; discriminate|]).
    destruct i; discriminate.
  - intros i j a b A B D X. unfold ex_js in A, B.
    do 4 (destruct i as [|i]; [do 4 (destruct j as [|j]; [first [contradiction|injection A as <-; injection B as <-; first [exact X|cbn [clash] in X; apply N in X; discriminate X]]|]); destruct j; discriminate|]).
    destruct i; discriminate.
  - do 2 eexists. split; [vm_compute; reflexivity|]. split; [reflexivity|]. vm_compute. reflexivity.
Qed.
