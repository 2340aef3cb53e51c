(** The inherited sequence methods act on the list of values and holes. *)
From Coq Require Import List NArith ZArith Bool Lia ZifyBool ZifyNat ZifyN Sorting.Sorted.
From Verif Require Import Base Dict SpecArray ModelArray ArrayFacts ArrayFacts2 ArrayFacts3 ModelValue ValueFacts SpecObject ModelObject
  ObjectFacts ArrayBuild SpecObjectUse ModelObjectUse ObjectUseFacts SpecSequence ModelSequence.
Import ListNotations.
Open Scope Z_scope.

Section Facts.
Context {T : Type}.
Notation holes := (list (option T)).
Variable same : T -> T -> bool.

Lemma elem_eq_hit v x : elem_eq same x v = hit same v x.
Proof. destruct x, v; reflexivity. Qed.

Lemma iter_ok (a : arr T) : arr_ok a ->
  arr_iter a = Ok (aabs a) /\ arr_ok (snd (view_items a)) /\ aabs (snd (view_items a)) = aabs a /\
  is_dense (snd (view_items a)) = is_dense a.
Proof.
  intros A. split; [apply arr_iter_eq; auto|].
  destruct (view_items_spec a A) as (a' & E & A' & L). rewrite E. cbn [snd]. split; [exact A'|]. split; [exact L|].
  apply (view_items_dense _ _ _ E).
Qed.

(** * index *)
Lemma get_past (a : arr T) i : arr_ok a -> arr_len a <= i -> arr_get a i = Err EIndex.
Proof.
  intros A L. pose proof (arr_get_spec a i A) as G. pose proof (arr_len_eq a A) as LE. unfold zlen in LE.
  unfold position in G. replace ((0 <=? i) && (i <? Z.of_nat (length (aabs a)))) with false in G by lia.
  replace ((- Z.of_nat (length (aabs a)) <=? i) && (i <? 0)) with false in G by lia. exact G.
Qed.

Lemma index_loop_ok (a : arr T) v stop : arr_ok a -> forall fuel i, 0 <= i -> (0 < fuel)%nat -> arr_len a < i + Z.of_nat fuel ->
  match seq_index_loop same fuel a v i stop with
  | Ok n => exists k, n = Z.of_nat k /\ i <= n /\ match stop with None => True | Some s => n < s end /\ hits same (aabs a) v k /\
            forall j, (j < k)%nat -> i <= Z.of_nat j -> ~ hits same (aabs a) v j
  | Err e => e = EValue /\
      forall j, i <= Z.of_nat j -> match stop with None => True | Some s => Z.of_nat j < s end -> ~ hits same (aabs a) v j
  end.
Proof.
  intros A. pose proof (arr_len_eq a A) as LE. unfold zlen in LE.
  induction fuel as [|fuel IH]; intros i P F0 F; cbn [seq_index_loop].
  - lia.
  - destruct (match stop with None => true | Some s => i <? s end) eqn:ST.
    + destruct (Z.lt_ge_cases i (arr_len a)) as [L|L].
      * destruct (nth_error (aabs a) (Z.to_nat i)) as [x|] eqn:N; [|apply nth_error_None in N; lia].
        pose proof (arr_get_nat a (Z.to_nat i) x A N) as G. rewrite (Z2Nat.id i P) in G. rewrite G, elem_eq_hit. destruct (hit same v x) eqn:H.
        -- exists (Z.to_nat i). split; [lia|]. split; [lia|]. split; [destruct stop; auto; lia|]. split; [exists x; auto|].
           intros j J1 J2. lia.
        -- assert (~ hits same (aabs a) v (Z.to_nat i)) as NH.
           { intros (y & Y & Q). rewrite N in Y. injection Y as <-. congruence. }
           specialize (IH (i + 1) ltac:(lia) ltac:(lia) ltac:(lia)). destruct (seq_index_loop same fuel a v (i + 1) stop) as [n|e].
           ++ destruct IH as (k & -> & K1 & K2 & K3 & K4). exists k. split; [reflexivity|]. split; [lia|]. split; [exact K2|].
              split; [exact K3|]. intros j J1 J2. destruct (Z.eq_dec (Z.of_nat j) i) as [Q|Q].
              ** replace (Z.to_nat i) with j in NH by lia. exact NH.
              ** apply K4; lia.
           ++ destruct IH as [-> K]. split; [reflexivity|]. intros j J1 J2. destruct (Z.eq_dec (Z.of_nat j) i) as [Q|Q].
              ** replace (Z.to_nat i) with j in NH by lia. exact NH.
              ** apply K; [lia|exact J2].
      * rewrite (get_past a i A L). split; [reflexivity|]. intros j J _ (x & X & _).
        assert (j < length (aabs a))%nat by (apply nth_error_Some; congruence). lia.
    + split; [reflexivity|]. intros j J1 J2. destruct stop; [lia|discriminate].
Qed.

Lemma index_ok (a : arr T) v start stop : arr_ok a ->
  match seq_index same a v start stop with
  | Ok n => exists k, n = Z.of_nat k /\ hits same (aabs a) v k /\ within (aabs a) start stop k /\
            forall j, (j < k)%nat -> within (aabs a) start stop j -> ~ hits same (aabs a) v j
  | Err e => e = EValue /\ forall j, within (aabs a) start stop j -> ~ hits same (aabs a) v j
  end.
Proof.
  intros A. pose proof (arr_len_eq a A) as LE. unfold zlen in LE. unfold seq_index.
  set (lo := if start <? 0 then Z.max (arr_len a + start) 0 else start).
  set (hi := match stop with Some s => Some (if s <? 0 then s + arr_len a else s) | None => None end).
  assert (0 <= lo) as P by (unfold lo; destruct (start <? 0) eqn:S0; lia).
  assert (forall k, within (aabs a) start stop k <-> lo <= Z.of_nat k /\ match hi with None => True | Some s => Z.of_nat k < s end) as W.
  { intros k. unfold within, from_end, lo, hi. rewrite <- LE. destruct (start <? 0) eqn:S0; destruct stop as [s|]; try destruct (s <? 0) eqn:S1; lia. }
  pose proof (index_loop_ok a v hi A (S (Z.to_nat (arr_len a))) lo P ltac:(lia) ltac:(lia)) as L.
  destruct (seq_index_loop same _ a v lo hi) as [n|e].
  - destruct L as (k & -> & K1 & K2 & K3 & K4). exists k. split; [reflexivity|]. split; [exact K3|]. split; [apply W; auto|].
    intros j J1 J2. apply W in J2 as [J2 _]. apply K4; auto.
  - destruct L as [-> L]. split; [reflexivity|]. intros j J. apply W in J as [J1 J2]. apply L; auto.
Qed.

(** * reversed *)
Lemma gets_ok (a : arr T) : arr_ok a -> forall ns, Forall (fun n => (n < length (aabs a))%nat) ns ->
  seq_gets a (map Z.of_nat ns) = Ok (map (fun n => nth n (aabs a) None) ns).
Proof.
  intros A. induction 1 as [|n ns L _ IH]; cbn [map seq_gets]; [reflexivity|].
  rewrite (arr_get_nat a n (nth n (aabs a) None) A) by (apply nth_error_nth'; auto). cbn [bind]. rewrite IH. reflexivity.
Qed.
Lemma map_nth_seq (l : holes) : map (fun n => nth n l None) (seq 0 (length l)) = l.
Proof.
  apply nth_error_ext'. intros n. rewrite nth_error_map. destruct (Nat.lt_ge_cases n (length l)) as [L|L].
  - rewrite (nth_error_nth' (seq _ _) 0%nat) by (rewrite seq_length; auto). rewrite seq_nth by auto. cbn [option_map Nat.add].
    symmetry. apply nth_error_nth'. auto.
  - rewrite !(proj2 (nth_error_None _ _)); auto. rewrite seq_length; auto.
Qed.
Lemma reversed_ok (a : arr T) : arr_ok a -> seq_reversed a = Ok (rev (aabs a)).
Proof.
  intros A. unfold seq_reversed. rewrite (arr_len_eq a A). unfold zlen. rewrite Nat2Z.id, <- map_rev, gets_ok; auto.
  - rewrite map_rev, map_nth_seq. reflexivity.
  - apply Forall_forall. intros n N. apply in_rev, in_seq in N. lia.
Qed.

(** * clear *)
Lemma pop_last_ok (a : arr T) : arr_ok a ->
  match aabs a with
  | [] => arr_pop a (-1) = (Err EIndex, a)
  | _ :: _ => exists v a', arr_pop a (-1) = (Ok v, a') /\ arr_ok a' /\ is_dense a' = is_dense a /\
              length (aabs a) = S (length (aabs a'))
  end.
Proof.
  intros A. destruct (arr_op a (OPop (-1))) as [r a'] eqn:E. destruct (arr_op_ok a _ r a' A E) as (A' & D & O).
  pose proof E as E0. cbn [arr_op] in E. destruct (arr_pop a (-1)) as [[v|e] b] eqn:P; injection E as <- <-;
    (assert (spec_op (aabs a) (OPop (-1)) _ (aabs b)) as Q by (destruct O as [O|[_ O]]; [exact O|inversion O])); clear O.
  - inversion Q as [| | | | | | | | | | | i k w PO N | | | | | | | | | ]; subst.
    destruct (aabs a) as [|x l] eqn:EL; [destruct k; discriminate|]. exists v, b. split; [reflexivity|]. split; [exact A'|].
    split; [exact D|]. match goal with H : aabs b = _ |- _ => rewrite H | H : _ = aabs b |- _ => rewrite <- H end.
    assert (k < length (x :: l))%nat by (apply nth_error_Some; congruence).
    rewrite app_length, firstn_length, skipn_length. cbn [length] in *. lia.
  - inversion Q as [| | | | | | | | | | | | i PO | | | | | | | | ]; subst.
    destruct (aabs a) as [|x l] eqn:EL.
    + f_equal. unfold arr_pop in P. pose proof (arr_get_spec a (-1) A) as G. rewrite EL, PO in G. rewrite G in P. injection P as <-. reflexivity.
    + exfalso. unfold position in PO. cbn [length] in PO. destruct (_ && _); [discriminate|].
      replace ((- Z.of_nat (S (length l)) <=? -1) && (-1 <? 0)) with true in PO by lia. discriminate.
Qed.
Lemma clear_loop_ok : forall fuel (a : arr T), arr_ok a -> (length (aabs a) < fuel)%nat ->
  exists a', seq_clear_loop fuel a = (Ok tt, a') /\ arr_ok a' /\ is_dense a' = is_dense a /\ aabs a' = [].
Proof.
  induction fuel as [|fuel IH]; intros a A F; [lia|]. cbn [seq_clear_loop]. pose proof (pop_last_ok a A) as P.
  destruct (aabs a) as [|x l] eqn:EL.
  - rewrite P. exists a. auto.
  - destruct P as (v & a1 & P & A1 & D1 & L1). rewrite P. destruct (IH a1 A1 ltac:(lia)) as (a' & E & A' & D' & L').
    exists a'. rewrite D1 in D'. auto.
Qed.

(** * reverse *)
Lemma set_fails (a : arr T) z v e a' : arr_ok a -> 0 <= z < arr_len a -> arr_set a z v = (Err e, a') ->
  (v = None /\ exists w, elem_at (aabs a) z = Some w) \/ (v <> None /\ number_used (aabs a) = 0).
Proof.
  intros A B E. destruct a as [d|s].
  - exfalso. destruct (set_exact (ADense d) z v A B) as (r & a2 & E2 & _ & _ & _ & O). rewrite E in E2. injection E2 as <- _.
    destruct O as [O|(_ & O & _)]; discriminate.
  - destruct (set_exact (ASparse s) z v A B) as (r & a2 & E2 & _ & _ & _ & O). rewrite E in E2. injection E2 as <- <-.
    destruct O as [O|(O & _ & _)]; [discriminate|]. injection O as ->.
    cbn [arr_set] in E. unfold lift in E. destruct (sparse_set s z v) as [r s'] eqn:SE. cbn [fst snd] in E. injection E as -> _.
    unfold sparse_set in SE. cbn [arr_len] in B. unfold sparse_norm in SE.
    replace (z <? 0) with false in SE by lia. replace (sparse_len s <=? z) with false in SE by lia.
    rewrite number_used_eq, <- arr_used_eq by exact A. cbn [arr_used].
    destruct (dmem Z.eqb z (s_items s)) eqn:M; destruct v as [v|].
    + discriminate.
    + left. split; [reflexivity|]. unfold dmem in M. destruct (dget Z.eqb z (s_items s)) as [w|] eqn:G; [|discriminate].
      exists w. cbn [aabs]. pose proof (arr_get_in (ASparse s) z A B) as AG. cbn [arr_get] in AG. unfold sparse_get, sparse_norm in AG.
      replace (z <? 0) with false in AG by lia. replace (sparse_len s <=? z) with false in AG by lia. cbn [bind aabs] in AG. rewrite G in AG. injection AG as AG. auto.
    + right. split; [discriminate|]. destruct (negb (sorted_assert (dset Z.eqb z v (s_items s)) (s_sorted s))) eqn:SA.
      * unfold sorted_assert in SA. destruct (zlen (dset Z.eqb z v (s_items s)) <=? 1) eqn:ZL; [|discriminate].
        assert (zlen (dset Z.eqb z v (s_items s)) = zlen (s_items s) + 1) as DL.
        { unfold zlen. rewrite (dset_length Z.eqb), M. lia. }
        pose proof (zlen_nonneg (s_items s)). lia.
      * destruct (s_sorted s); [destruct (_ <? _)|]; discriminate.
    + discriminate.
Qed.

(** * Building sparse storage from values *)
Lemma nth_error_skipn' (l : holes) n : forall i, nth_error (skipn n l) i = nth_error l (n + i).
Proof. clear same. revert l. induction n as [|n IH]; intros [|x l] i; cbn [skipn Nat.add nth_error]; auto. destruct i; reflexivity. Qed.
Lemma dget_rev (es : list (Z * T)) k : NoDup (dkeys es) -> dget Z.eqb k (rev es) = dget Z.eqb k es.
Proof.
  clear same. induction es as [|[i v] es IH]; intros N; [reflexivity|]. cbn [rev]. rewrite dget_app. inversion N as [|? ? NI N']; subst.
  rewrite (IH N'). cbn [dget]. destruct (k =? i) eqn:E; [|destruct (dget Z.eqb k es); reflexivity].
  apply Z.eqb_eq in E as ->. rewrite (proj2 (dget_None _ zeqb_spec i es)); auto.
Qed.
Lemma entries_abs (l : holes) n : (n <= length l)%nat -> 
  map (fun k => dget Z.eqb (Z.of_nat k) (rev (entries_from 0 l))) (seq 0 n) = firstn n l.
Proof.
  clear same. intros L. apply nth_error_ext'. intros i. rewrite nth_error_map. destruct (Nat.lt_ge_cases i n) as [B|B].
  - rewrite (nth_error_nth' (seq _ _) 0%nat) by (rewrite seq_length; auto). rewrite seq_nth by auto. cbn [option_map Nat.add].
    rewrite dget_rev.
    + pose proof (entries_from_get l 0 i) as G. rewrite Z.add_0_l in G. rewrite G.
      destruct (nth_error l i) as [x|] eqn:N; [|apply nth_error_None in N; lia].
      rewrite <- (firstn_skipn n l), nth_error_app1 in N by (rewrite firstn_length; lia). rewrite N. destruct x; reflexivity.
    + rewrite entries_from_keys. pose proof (indexes_from_sorted l 0) as SS. revert SS. generalize (indexes_from 0 l). clear.
      induction 1 as [|z r SS IH F]; constructor; auto. intros H. rewrite Forall_forall in F. specialize (F _ H). lia.
  - rewrite !(proj2 (nth_error_None _ _)); auto; [rewrite firstn_length; lia|rewrite seq_length; auto].
Qed.
Lemma init_values_ok (values : holes) :
  match sparse_init_values values with
  | Ok s => sparse_ok s /\ sabs s = values /\ Z.of_nat (length values) <= 2 ^ 32 - 1
  | Err e => e = EValue /\ 2 ^ 32 - 1 < Z.of_nat (length values)
  end.
Proof.
  clear same. unfold sparse_init_values. destruct (sparse_init_length (entries_from 0 values) (zlen values)) as [s|e] eqn:E.
  - destruct (sparse_init_length_ok _ _ _ E) as (OK & B & S1). split; [exact OK|]. unfold MAX_LEN, zlen in *.
    split; [|lia]. rewrite S1, Nat2Z.id, entries_abs, firstn_all by lia. reflexivity.
  - unfold sparse_init_length in E. destruct ((zlen values <? 0) || (MAX_LEN <? zlen values)) eqn:B.
    + injection E as <-. split; [reflexivity|]. unfold MAX_LEN, zlen in *. lia.
    + exfalso. destruct (sparse_fill_ok (zlen values) (entries_from 0 values) [] (NoDup_nil _)) as [F1 _].
      destruct (sparse_fill (zlen values) (entries_from 0 values) []) as [items valid]. cbn [fst snd] in F1. subst valid.
      replace (forallb _ _) with true in E; [discriminate|]. symmetry. apply forallb_forall. intros [k v] I.
      apply entries_from_in in I. cbn [fst]. lia.
Qed.
Lemma init_unsized_ok (values : holes) :
  match sparse_init_unsized values with
  | Ok s => sparse_ok s /\ (exists n, values = sabs s ++ repeat None n) /\ (forall l, sabs s <> l ++ [None])
  | Err e => e = EIndex /\ exists i, occupied values i /\ 2 ^ 32 - 1 <= i
  end.
Proof.
  clear same. unfold sparse_init_unsized. destruct (sparse_init_entries (entries_from 0 values)) as [s|e] eqn:E.
  - destruct (sparse_init_entries_ok _ _ E) as (OK & S1 & TOP & BD). split; [exact OK|].
    assert (forall i, In i (map fst (entries_from 0 values)) <-> occupied values i) as OC.
    { intros i. change (map fst (entries_from 0 values)) with (dkeys (entries_from 0 values)). rewrite entries_from_keys. apply indexes_occupied. }
    assert (Z.to_nat (s_max s + 1) <= length values)%nat as LE.
    { destruct TOP as [[-> _]|TOP]; [lia|]. apply OC in TOP as (v & P & N).
      assert (Z.to_nat (s_max s) < length values)%nat by (apply nth_error_Some; congruence). lia. }
    rewrite entries_abs in S1 by exact LE. split.
    + exists (length values - Z.to_nat (s_max s + 1))%nat. rewrite S1.
      rewrite <- (firstn_skipn (Z.to_nat (s_max s + 1)) values) at 1. f_equal.
      apply nth_error_ext'. intros i. destruct (Nat.lt_ge_cases i (length values - Z.to_nat (s_max s + 1))) as [L|L].
      * rewrite (nth_error_repeat None L). destruct (nth_error (skipn (Z.to_nat (s_max s + 1)) values) i) as [x|] eqn:N.
        -- f_equal. destruct x as [v|]; [exfalso|reflexivity]. rewrite nth_error_skipn' in N.
           assert (occupied values (Z.of_nat (Z.to_nat (s_max s + 1) + i))) as O by (exists v; split; [lia|rewrite Nat2Z.id; exact N]).
           apply OC, BD in O. lia.
        -- apply nth_error_None in N. rewrite skipn_length in N. lia.
      * rewrite !(proj2 (nth_error_None _ _)); auto; [rewrite repeat_length; lia|rewrite skipn_length; lia].
    + intros l L. destruct TOP as [[TOP _]|TOP].
      * rewrite TOP in S1. change (Z.to_nat (-1 + 1)) with 0%nat in S1. cbn [firstn] in S1. rewrite L in S1. destruct l; discriminate.
      * apply OC in TOP as (v & P & N). assert (nth_error (sabs s) (Z.to_nat (s_max s)) = Some (Some v)) as N2.
        { rewrite S1. rewrite <- (firstn_skipn (Z.to_nat (s_max s + 1)) values), nth_error_app1 in N by (rewrite firstn_length; lia). exact N. }
        assert (length (sabs s) = Z.to_nat (s_max s + 1)) as LL by (rewrite S1, firstn_length; lia).
        rewrite L in N2, LL. rewrite app_length in LL. cbn [length] in LL. rewrite nth_error_app2 in N2 by lia.
        replace (Z.to_nat (s_max s) - length l)%nat with 0%nat in N2 by lia. discriminate.
  - unfold sparse_init_entries in E.
    assert (forall i, In i (zsort (dkeys (dupdate Z.eqb [] (entries_from 0 values)))) <-> occupied values i) as OC.
    { intros i. rewrite zsort_in. rewrite <- (dget_Some_key _ zeqb_spec), dupdate_get. cbn [dget].
      rewrite <- indexes_occupied, <- entries_from_keys. rewrite <- (dget_Some_key _ zeqb_spec i (entries_from 0 values)). rewrite dget_rev.
      - destruct (dget Z.eqb i (entries_from 0 values)); split; intros [w W]; try discriminate; eauto.
      - rewrite entries_from_keys. pose proof (indexes_from_sorted values 0) as SS. revert SS. generalize (indexes_from 0 values). clear.
        induction 1 as [|z r SS IH F]; constructor; auto. intros H. rewrite Forall_forall in F. specialize (F _ H). lia. }
    destruct (zsort _) as [|lo r] eqn:ZS; [discriminate|]. destruct (_ || _) eqn:B; [|discriminate]. injection E as <-. split; [reflexivity|].
    apply orb_true_iff in B as [B|B].
    + exfalso. destruct (proj1 (OC lo)) as (v & P & _); [left; reflexivity|]. lia.
    + exists (last (lo :: r) 0). split; [apply OC, last_in; discriminate|]. unfold MAX_LEN in B. lia.
Qed.

Lemma replace_at (P Q : holes) x v : firstn (length P) (P ++ x :: Q) ++ v :: skipn (S (length P)) (P ++ x :: Q) = P ++ v :: Q.
Proof.
  rewrite firstn_app, Nat.sub_diag. cbn [firstn]. rewrite app_nil_r, firstn_all. f_equal. f_equal.
  rewrite skipn_app, skipn_all2 by lia. replace (S (length P) - length P)%nat with 1%nat by lia. reflexivity.
Qed.
Lemma get_at (a : arr T) P x Q : arr_ok a -> aabs a = P ++ x :: Q -> arr_get a (Z.of_nat (length P)) = Ok x.
Proof. intros A E. apply arr_get_nat; [exact A|]. rewrite E, nth_error_app2, Nat.sub_diag by lia. reflexivity. Qed.
Lemma set_at (a : arr T) P x Q v : arr_ok a -> aabs a = P ++ x :: Q ->
  exists r a', arr_set a (Z.of_nat (length P)) v = (r, a') /\ arr_ok a' /\ is_dense a' = is_dense a /\ aabs a' = P ++ v :: Q /\
    (r = Ok tt \/ (r = Err EAssert /\ is_dense a = false /\ number_used (aabs a) <= 2 /\
                   ((v = None /\ x <> None) \/ (v <> None /\ number_used (aabs a) = 0)))).
Proof.
  intros A E. assert (0 <= Z.of_nat (length P) < arr_len a) as B.
  { rewrite (arr_len_eq a A), E. unfold zlen. rewrite app_length. cbn [length]. lia. }
  destruct (set_exact a _ v A B) as (r & a' & E1 & A1 & D1 & L1 & O). exists r, a'. rewrite Nat2Z.id, E, replace_at in L1.
  split; [exact E1|]. split; [exact A1|]. split; [exact D1|]. split; [exact L1|].
  destruct O as [O|(-> & D & U)]; [left; exact O|right]. split; [reflexivity|]. split; [exact D|]. split; [exact U|].
  destruct (set_fails a _ v _ a' A B E1) as [[-> [w W]]|R]; [left; split; [reflexivity|]|right; exact R].
  rewrite E in W. unfold elem_at in W. replace (Z.of_nat (length P) <? 0) with false in W by lia.
  rewrite Nat2Z.id, nth_error_app2, Nat.sub_diag in W by lia. cbn [nth_error] in W. congruence.
Qed.

Lemma used_app (l m : holes) : number_used (l ++ m) = number_used l + number_used m.
Proof. unfold number_used. rewrite filter_app, app_length. lia. Qed.
Lemma used_cons x (m : holes) : number_used (x :: m) = (match x with Some _ => 1 | None => 0 end) + number_used m.
Proof. unfold number_used. cbn [filter]. destruct x; cbn [length]; lia. Qed.
Lemma used_nonneg (m : holes) : 0 <= number_used m.
Proof. unfold number_used. lia. Qed.
Lemma used_rev (m : holes) : number_used (rev m) = number_used m.
Proof. induction m as [|x m IH]; [reflexivity|]. cbn [rev]. rewrite used_app, !used_cons, IH. unfold number_used at 2. cbn [filter length]. lia. Qed.

(** One exchange *)
Lemma swap_ok (a : arr T) P x M y Q n : arr_ok a -> aabs a = P ++ x :: M ++ y :: Q -> length P = length Q ->
  n = Z.of_nat (length (aabs a)) ->
  exists r a', seq_swap a n (Z.of_nat (length P)) = (r, a') /\ arr_ok a' /\ is_dense a' = is_dense a /\
    ((aabs a' = P ++ y :: M ++ x :: Q /\ (r = Ok tt \/ (r = Err EAssert /\ is_dense a = false /\ number_used (aabs a) <= 2))) \/
     (r = Err EAssert /\ is_dense a = false /\ number_used (aabs a) <= 2 /\ y = None /\ x <> None /\
      aabs a' = P ++ None :: M ++ y :: Q)).
Proof.
  intros A E L ->. unfold seq_swap.
  assert (aabs a = (P ++ x :: M) ++ y :: Q) as E' by (rewrite E, <- app_assoc; reflexivity).
  assert (forall z, Z.of_nat (length (aabs a)) - Z.of_nat (length P) - 1 = Z.of_nat (length (P ++ z :: M))) as POS.
  { intros z. rewrite E'. rewrite !app_length. cbn [length]. lia. }
  rewrite (POS x), (get_at a _ y Q A E'), (get_at a P x _ A E).
  destruct (set_at a P x (M ++ y :: Q) y A E) as (r1 & a1 & S1 & A1 & D1 & L1 & O1). rewrite S1.
  destruct O1 as [->|(-> & D & U & W)].
  - rewrite app_comm_cons, app_assoc in L1.
    destruct (set_at a1 (P ++ y :: M) y Q x A1 L1) as (r2 & a2 & S2 & A2 & D2 & L2 & O2).
    rewrite <- (POS x), (POS y), S2. exists r2, a2. split; [reflexivity|]. split; [exact A2|]. split; [congruence|]. left.
    split; [rewrite L2, <- app_assoc; reflexivity|]. destruct O2 as [->|(-> & D & U & W)]; [left; reflexivity|right].
    split; [reflexivity|]. split; [congruence|]. rewrite E. rewrite L1 in U, W.
    repeat rewrite ?used_app, ?used_cons in *. pose proof (used_nonneg P). pose proof (used_nonneg M). pose proof (used_nonneg Q).
    destruct W as [[-> Y]|[X U0]].
    { destruct y; [|congruence]. lia. }
    repeat rewrite ?used_app, ?used_cons in U0. destruct x; [|congruence]. destruct y; lia.
  - exists (Err EAssert), a1. split; [reflexivity|]. split; [exact A1|]. split; [exact D1|]. right.
    split; [reflexivity|]. split; [exact D|]. split; [exact U|]. destruct W as [[-> X]|[X U0]]; [auto|].
    exfalso. rewrite E in U0. repeat rewrite ?used_app, ?used_cons in U0. pose proof (used_nonneg P). pose proof (used_nonneg M). pose proof (used_nonneg Q).
    destruct y; [destruct x; lia|congruence].
Qed.

Lemma mirrored_at (A M B : holes) : length A = length B -> mirrored (A ++ M ++ B) (length A) = rev B ++ M ++ rev A.
Proof.
  intros L. unfold mirrored. rewrite !rev_app_distr, <- app_assoc, !app_length.
  replace (length A) with (length (rev B)) at 1 by (rewrite rev_length; auto). rewrite firstn_app, Nat.sub_diag, firstn_all.
  cbn [firstn]. rewrite app_nil_r. f_equal. f_equal.
  - rewrite skipn_app, Nat.sub_diag, skipn_all2 by lia. cbn [skipn app]. rewrite firstn_app.
    replace (length A + (length M + length B) - 2 * length A)%nat with (length M) by lia.
    rewrite firstn_all, Nat.sub_diag. cbn [firstn]. apply app_nil_r.
  - rewrite app_assoc, skipn_app, skipn_all2 by (rewrite app_length, !rev_length; lia). cbn [app].
    rewrite app_length, !rev_length. replace (length A + (length M + length B) - length A - (length B + length M))%nat with 0%nat by lia. reflexivity.
Qed.

Definition reversing_stopped (l l' : holes) : Prop :=
  (exists A M B, l = A ++ M ++ B /\ length A = length B /\ l' = rev B ++ M ++ rev A) \/
  (exists A v M B, l = A ++ Some v :: M ++ None :: B /\ length A = length B /\ l' = rev B ++ None :: M ++ None :: rev A).

Lemma last_split (M : holes) : (0 < length M)%nat -> exists M' y, M = M' ++ [y].
Proof. intros L. destruct (exists_last (l := M)) as (M' & y & ->); [destruct M; [cbn in L; lia|discriminate]|eauto]. Qed.

Lemma swaps_ok : forall m (a : arr T) A M B n, arr_ok a -> aabs a = rev B ++ M ++ rev A -> length A = length B ->
  n = Z.of_nat (length (aabs a)) -> m = Nat.div2 (length M) ->
  exists r a', seq_swaps a n (map Z.of_nat (seq (length A) m)) = (r, a') /\ arr_ok a' /\ is_dense a' = is_dense a /\
    ((r = Ok tt /\ aabs a' = rev B ++ rev M ++ rev A) \/
     (r = Err EAssert /\ is_dense a = false /\ number_used (aabs a) <= 2 /\ reversing_stopped (A ++ M ++ B) (aabs a'))).
Proof.
  induction m as [|m IH]; intros a A M B n OK E L N EM; cbn [seq map seq_swaps].
  - exists (Ok tt), a. split; [reflexivity|]. split; [exact OK|]. split; [reflexivity|]. left. split; [reflexivity|]. rewrite E.
    destruct M as [|x [|y M]]; [reflexivity|reflexivity|]. cbn [length Nat.div2] in EM. lia.
  - destruct M as [|x M0]; [discriminate|]. destruct M0 as [|z M0]; [discriminate|].
    destruct (last_split (z :: M0)) as (M & y & EZ); [cbn [length]; lia|]. rewrite EZ in *. clear EZ z M0.
    assert (m = Nat.div2 (length M)) as EM'. { cbn [length] in EM. rewrite app_length in EM. cbn [length] in EM. rewrite Nat.add_comm in EM. cbn [Nat.add Nat.div2] in EM. lia. }
    assert (aabs a = rev B ++ x :: M ++ y :: rev A) as E1. { rewrite E. cbn [app]. rewrite <- app_assoc. reflexivity. }
    destruct (swap_ok a (rev B) x M y (rev A) n OK E1) as (r & a1 & S1 & A1 & D1 & O1); [rewrite !rev_length; auto|exact N|].
    rewrite rev_length, <- L in S1. rewrite S1.
    assert ((A ++ (x :: M ++ [y]) ++ B) = (A ++ [x]) ++ M ++ (y :: B)) as RE.
    { cbn [app]. rewrite <- !app_assoc. reflexivity. }
    destruct O1 as [[L1 R1]|(-> & D & U & -> & X & L1)].
    + assert (aabs a1 = rev (y :: B) ++ M ++ rev (A ++ [x])) as L2.
      { rewrite L1, rev_app_distr. cbn [rev app]. rewrite <- app_assoc. reflexivity. }
      destruct R1 as [->|(-> & D & U)].
      * destruct (IH a1 (A ++ [x]) M (y :: B) n A1 L2) as (r2 & a2 & S2 & A2 & D2 & O2).
        { rewrite app_length. cbn [length]. lia. }
        { rewrite N, L1, E1, !app_length. cbn [length]. rewrite !app_length. cbn [length]. lia. }
        { exact EM'. }
        replace (length (A ++ [x])) with (S (length A)) in S2 by (rewrite app_length; cbn [length]; lia). rewrite S2.
        exists r2, a2. split; [reflexivity|]. split; [exact A2|]. split; [congruence|]. rewrite RE. destruct O2 as [[-> O2]|(-> & D & U & RS)].
        -- left. split; [reflexivity|]. rewrite O2. rewrite rev_app_distr. cbn [rev app]. rewrite rev_app_distr. cbn [rev app]. rewrite <- !app_assoc. reflexivity.
        -- right. split; [reflexivity|]. split; [congruence|]. split; [|exact RS].
           rewrite E1. rewrite L1 in U. repeat rewrite ?used_app, ?used_cons in *. lia.
      * exists (Err EAssert), a1. split; [reflexivity|]. split; [exact A1|]. split; [exact D1|]. right. split; [reflexivity|]. split; [exact D|].
        split; [exact U|]. left. exists (A ++ [x]), M, (y :: B). split; [exact RE|]. split; [rewrite app_length; cbn [length]; lia|exact L2].
    + exists (Err EAssert), a1. split; [reflexivity|]. split; [exact A1|]. split; [exact D1|]. right. split; [reflexivity|]. split; [exact D|].
      split; [exact U|]. right. destruct x as [v|]; [|congruence]. exists A, v, M, B. split; [cbn [app]; rewrite <- app_assoc; reflexivity|].
      split; [exact L|exact L1].
Qed.

Lemma stopped_deviation (l l' : holes) : number_used l <= 2 -> reversing_stopped l l' -> sdeviation l SReverse (AExn EAssert) l'.
Proof.
  intros U [(A & M & B & -> & L & ->)|(A & v & M & B & -> & L & ->)].
  - rewrite <- mirrored_at by auto. apply sd_reverse; [|exact U]. rewrite !app_length. lia.
  - assert (A ++ Some v :: M ++ None :: B = A ++ (Some v :: M ++ [None]) ++ B) as RE by (cbn [app]; rewrite <- app_assoc; reflexivity).
    assert (rev B ++ None :: M ++ None :: rev A =
      firstn (length A) (mirrored (A ++ Some v :: M ++ None :: B) (length A)) ++ None ::
      skipn (S (length A)) (mirrored (A ++ Some v :: M ++ None :: B) (length A))) as ->.
    { rewrite RE, mirrored_at by auto. replace (length A) with (length (rev B)) by (rewrite rev_length; auto).
      cbn [app]. rewrite replace_at, <- app_assoc. reflexivity. }
    apply sd_reverse_lost with (v := v); [|exact U| |].
    + rewrite !app_length. cbn [length]. rewrite app_length. cbn [length]. lia.
    + rewrite nth_error_app2, Nat.sub_diag by lia. reflexivity.
    + replace (A ++ Some v :: M ++ None :: B) with ((A ++ Some v :: M) ++ None :: B) by (rewrite <- app_assoc; reflexivity).
      replace (length ((A ++ Some v :: M) ++ None :: B) - S (length A))%nat with (length (A ++ Some v :: M))
        by (rewrite !app_length; cbn [length]; lia).
      rewrite nth_error_app2, Nat.sub_diag by lia. reflexivity.
Qed.

Lemma reverse_ok (a : arr T) r a' : arr_ok a -> seq_reverse a = (r, a') -> arr_ok a' /\ is_dense a' = is_dense a /\
  ((r = Ok tt /\ aabs a' = rev (aabs a)) \/
   (r = Err EAssert /\ is_dense a = false /\ sdeviation (aabs a) SReverse (AExn EAssert) (aabs a'))).
Proof.
  intros A E. unfold seq_reverse in E. pose proof (arr_len_eq a A) as LE. unfold zlen in LE.
  destruct (swaps_ok (Nat.div2 (length (aabs a))) a [] (aabs a) [] (arr_len a) A) as (r1 & a1 & E1 & A1 & D1 & O1).
  { cbn [rev app]. rewrite app_nil_r. reflexivity. }
  { reflexivity. }
  { exact LE. }
  { reflexivity. }
  cbn [length] in E1. replace (Z.to_nat (arr_len a / 2)) with (Nat.div2 (length (aabs a))) in E by (rewrite LE, Nat.div2_div; lia).
  rewrite E1 in E. injection E as <- <-. split; [exact A1|]. split; [exact D1|]. cbn [app rev] in O1. rewrite !app_nil_r in O1.
  destruct O1 as [O1|(-> & D & U & R)]; [left; exact O1|right]. split; [reflexivity|]. split; [exact D|]. apply stopped_deviation; auto.
Qed.

Lemma del_at (a : arr T) k : arr_ok a -> (k < length (aabs a))%nat ->
  exists a', arr_del a (Z.of_nat k) = (Ok tt, a') /\ arr_ok a' /\ is_dense a' = is_dense a /\ aabs a' = firstn k (aabs a) ++ skipn (S k) (aabs a).
Proof.
  intros A L. destruct (arr_op a (ODel (Z.of_nat k))) as [r a'] eqn:E. destruct (arr_op_ok a _ r a' A E) as (A' & D & O).
  cbn [arr_op] in E. destruct (arr_del a (Z.of_nat k)) as [[[]|e] b] eqn:P; cbn [unit_resp] in E; injection E as <- <-;
    (assert (spec_op (aabs a) (ODel (Z.of_nat k)) _ (aabs b)) as Q by (destruct O as [O|[_ O]]; [exact O|inversion O])); clear O.
  - exists b. split; [reflexivity|]. split; [exact A'|]. split; [exact D|]. inversion Q as [| | | |i k2 PO H| | | | | | | | | | | | | | | | ]; subst.
    unfold position in PO. replace ((0 <=? Z.of_nat k) && (Z.of_nat k <? Z.of_nat (length (aabs a)))) with true in PO by lia.
    injection PO as <-. rewrite Nat2Z.id. reflexivity.
  - exfalso. inversion Q as [| | | | |i PO| | | | | | | | | | | | | | | ]; subst. unfold position in PO.
    replace ((0 <=? Z.of_nat k) && (Z.of_nat k <? Z.of_nat (length (aabs a)))) with true in PO by lia. discriminate.
Qed.

Lemma seq_op_ok (a : arr T) o r a' : arr_ok a -> seq_op same a o = (r, a') ->
  arr_ok a' /\ is_dense a' = is_dense a /\
  (sspec same (aabs a) o r (aabs a') \/ (is_dense a = false /\ sdeviation (aabs a) o r (aabs a'))).
Proof.
  intros A E. destruct (iter_ok a A) as (IT & VA & VL & VD).
  destruct o as [o|v|v|v start stop| | |v| |]; cbn [seq_op] in E.
  - destruct (arr_op a o) as [x b] eqn:EA. injection E as <- <-. destruct (arr_op_ok a o x b A EA) as (A' & D & O).
    split; [exact A'|]. split; [exact D|]. destruct O as [O|[DD O]]; [left; apply ss_base; exact O|right; split; [exact DD|apply sd_base; exact O]].
  - unfold seq_contains in E. rewrite IT in E. cbn [bind] in E. injection E as <- <-. split; [exact VA|]. split; [exact VD|]. left. rewrite VL.
    apply ss_contains. rewrite existsb_exists. split.
    + intros (x & I & H). apply In_nth_error in I as [k K]. exists k, x. rewrite elem_eq_hit in H. auto.
    + intros (k & x & K & H). exists x. rewrite elem_eq_hit. split; [eapply nth_error_In; eauto|exact H].
  - unfold seq_count in E. rewrite IT in E. cbn [bind] in E. injection E as <- <-. split; [exact VA|]. split; [exact VD|]. left. rewrite VL.
    unfold zlen. rewrite (filter_ext _ (hit same v)) by (intros; apply elem_eq_hit). apply ss_count.
  - pose proof (index_ok a v start stop A) as I. destruct (seq_index same a v start stop) as [n|e]; injection E as <- <-; (split; [exact A|]; split; [reflexivity|]; left).
    + destruct I as (k & -> & H & W & F). apply ss_index; auto.
    + destruct I as [-> I]. apply ss_index_err. auto.
  - rewrite (reversed_ok a A) in E. injection E as <- <-. split; [exact A|]. split; [reflexivity|]. left. apply ss_reversed.
  - destruct (seq_reverse a) as [x b] eqn:ER. destruct (reverse_ok a x b A ER) as (A' & D & O). unfold done in E.
    destruct O as [[-> O]|(-> & DD & O)]; injection E as <- <-; (split; [exact A'|]; split; [exact D|]).
    + left. rewrite O. apply ss_reverse.
    + right. auto.
  - unfold seq_remove in E. pose proof (index_ok a v 0 None A) as I.
    assert (forall j, within (aabs a) 0 None j) as W. { intros j. unfold within, from_end. split; [|trivial]. change (0 <? 0) with false. lia. }
    destruct (seq_index same a v 0 None) as [n|e].
    + destruct I as (k & -> & H & _ & F). assert (k < length (aabs a))%nat as K. { destruct H as (x & X & _). apply nth_error_Some. congruence. }
      destruct (del_at a k A K) as (b & DE & A' & D & L). rewrite DE in E. injection E as <- <-. split; [exact A'|]. split; [exact D|]. left.
      rewrite L. apply ss_remove; auto.
    + destruct I as [-> I]. injection E as <- <-. split; [exact A|]. split; [reflexivity|]. left. apply ss_remove_err. auto.
  - unfold seq_clear in E. rewrite (arr_len_eq a A) in E. unfold zlen in E. rewrite Nat2Z.id in E.
    destruct (clear_loop_ok (S (length (aabs a))) a A ltac:(lia)) as (b & EC & A' & D & L). rewrite EC in E. injection E as <- <-.
    split; [exact A'|]. split; [exact D|]. left. rewrite L. apply ss_clear.
  - unfold seq_extend_self in E. rewrite IT in E. destruct (arr_op (snd (view_items a)) (OExtend (aabs a))) as [x b] eqn:EA.
    destruct (arr_op_ok _ _ x b VA EA) as (A' & D & O). cbn [arr_op] in EA. rewrite VL, VD in *.
    destruct (arr_extend (snd (view_items a)) (aabs a)) as [[[]|e] c]; cbn [unit_resp done] in E, EA; injection EA as <- <-; injection E as <- <-;
      (split; [exact A'|]; split; [exact D|]).
    + destruct O as [O|[DD O]]; inversion O; subst.
      * left. apply ss_extend_self.
      * right. split; [exact DD|]. apply sd_extend_self. auto.
    + destruct O as [O|[DD O]]; inversion O; subst. right. split; [exact DD|]. apply sd_extend_self_full; auto.
Qed.

Lemma seq_ops_ok ops : forall (a : arr T) tr a', arr_ok a -> seq_ops same a ops = (tr, a') ->
  arr_ok a' /\ is_dense a' = is_dense a /\ map fst tr = ops /\ shistory same (negb (is_dense a)) (aabs a) tr (aabs a').
Proof.
  induction ops as [|o ops IH]; intros a tr a' A E; cbn [seq_ops] in E.
  - injection E as <- <-. split; [exact A|]. split; [reflexivity|]. split; [reflexivity|]. constructor.
  - destruct (seq_op same a o) as [x a1] eqn:E1. destruct (seq_ops same a1 ops) as [xs a2] eqn:E2. injection E as <- <-.
    destruct (seq_op_ok a o x a1 A E1) as (A1 & D1 & O). destruct (IH a1 xs a2 A1 E2) as (A2 & D2 & F & H).
    split; [exact A2|]. split; [congruence|]. split; [cbn [map fst]; congruence|]. apply sh_cons with (l1 := aabs a1).
    + destruct O as [O|[DD O]]; [left; exact O|right; rewrite DD; auto].
    + rewrite D1 in H. exact H.
Qed.
End Facts.
