(** C59: the operators of JSSet are set operations under JavaScript's equality, with a defined order. *)
From Coq Require Import List NArith ZArith Bool Lia.
From Verif Require Import Base Dict SpecNumber ModelValue ValueFacts SpecKey KeyFacts SpecMap ModelMap MapFacts ModelHeap ModelEncode ModelSetOps.
Import ListNotations.
Open Scope Z_scope.

(** * Specification *)
(** The members of [l] for which [P] holds, in order. *)
Inductive where_ (P : val -> Prop) : list val -> list val -> Prop :=
| wh_nil : where_ P [] []
| wh_keep x l r : P x -> where_ P l r -> where_ P (x :: l) (x :: r)
| wh_drop x l r : ~ P x -> where_ P l r -> where_ P (x :: l) r.

Section Spec.
Variable bytes_of : nat -> option bytes.
Notation same := (js_same bytes_of).
Definition member (l : list val) (x : val) : Prop := exists y, In y l /\ same y x.
(** A set made by the operations of C40. *)
Definition made (m : jsset) : Prop := exists ops tr, js_ops bytes_of [] ops = (tr, m).
(** Operands whose membership is JavaScript's: JSSets, and iterables that are no sets. Ints too large for a float raise
    OverflowError (C40) and are left out. *)
Definition js_operand (o : operand) : Prop :=
  match o with
  | OItself => True
  | OJSSet m => made m
  | OOtherSet _ _ => False
  | OIterable l => forall k, In k l -> ~ huge k
  end.
(** [a | b] in order: a's members, each replaced by b's same member if there is one, then b's others. *)
Definition union_order (a b r : list val) : Prop :=
  exists a' b', Forall2 (fun x y => same x y /\ (In y b \/ (y = x /\ ~ member b x))) a a' /\
    where_ (fun x => ~ member a x) b b' /\ r = a' ++ b'.
(** [a ^ b] in order *)
Definition xor_order (a b r : list val) : Prop :=
  exists a' b', where_ (fun x => ~ member b x) a a' /\ where_ (fun x => ~ member a x) b b' /\ r = a' ++ b'.
End Spec.

(** * Proofs *)
Section Facts.
Variable bytes_of : nat -> option bytes.
Notation same := (js_same bytes_of).
Notation mem := (member bytes_of).
Notation contains := (js_contains bytes_of).
Notation sinv := (cinv bytes_of (fun k : val => k)).

Lemma same_refl a : same a a.
Proof. unfold js_same. destruct (number_of a) eqn:N; [apply num_key_eq; reflexivity|]. destruct a; auto. Qed.
Lemma same_sym a b : same a b -> same b a.
Proof.
  unfold js_same. destruct (number_of a) eqn:Na, (number_of b) eqn:Nb; auto; [rewrite <- !num_key_eq; congruence|].
  destruct a, b; auto; intros E; try discriminate. destruct E as [->|(c & A & B)]; eauto.
Qed.
Lemma same_trans a b c : same a b -> same b c -> same a c.
Proof.
  unfold js_same. destruct (number_of a) eqn:Na, (number_of b) eqn:Nb, (number_of c) eqn:Nc; auto; try contradiction.
  - rewrite <- !num_key_eq. congruence.
  - destruct a, b; try discriminate; destruct c; intros E F; try congruence.
    destruct E as [->|(x & E1 & E2)]; destruct F as [->|(y & F1 & F2)]; eauto. right. exists x. split; congruence.
Qed.
Lemma mem_same l x y : same x y -> mem l x -> mem l y.
Proof. intros S [z [I SZ]]. exists z. split; [exact I|]. eapply same_trans; eauto. Qed.
Lemma mem_cons v l x : mem (v :: l) x <-> same v x \/ mem l x.
Proof.
  split.
  - intros [z [[->|I] S]]; [left; exact S|right; exists z; auto].
  - intros [S|[z [I S]]]; [exists v|exists z]; cbn; auto.
Qed.
Lemma mem_app a b x : mem (a ++ b) x <-> mem a x \/ mem b x.
Proof.
  split.
  - intros [z [I S]]. apply in_app_or in I as [I|I]; [left|right]; exists z; auto.
  - intros [[z [I S]]|[z [I S]]]; exists z; split; auto; apply in_or_app; auto.
Qed.
Lemma mem_nil x : ~ mem [] x.
Proof. intros [z [[] _]]. Qed.
Lemma mem_in l x : In x l -> mem l x.
Proof. intros I. exists x. split; [exact I|apply same_refl]. Qed.
Lemma not_member_mem l k : not_member bytes_of l k <-> ~ mem l k.
Proof. split; [intros N [z [I S]]; exact (N z I S)|intros N z I S; apply N; exists z; auto]. Qed.

Lemma distinct_cons v l : distinct_members bytes_of (v :: l) <-> ~ mem l v /\ distinct_members bytes_of l.
Proof.
  split.
  - intros D. split.
    + intros [z [I SM]]. apply In_nth_error in I as [n I]. apply (D 0%nat (S n) v z eq_refl I); [discriminate|]. apply same_sym. exact SM.
    + intros i j a b A B NE. apply (D (S i) (S j) a b A B). congruence.
  - intros [N D] i j a b A B NE SM. destruct i as [|i], j as [|j]; cbn [nth_error] in *.
    + congruence.
    + injection A as <-. apply N. exists b. split; [eapply nth_error_In; eauto|apply same_sym; exact SM].
    + injection B as <-. apply N. exists a. split; [eapply nth_error_In; eauto|exact SM].
    + apply (D i j a b A B); [congruence|exact SM].
Qed.
Lemma distinct_app a b : distinct_members bytes_of (a ++ b) <->
  distinct_members bytes_of a /\ distinct_members bytes_of b /\ forall x, In x a -> ~ mem b x.
Proof.
  induction a as [|v a IH]; cbn [app].
  - split; [intros D; split; [intros [|] ? ? ? H; discriminate|split; [exact D|intros x []]]|tauto].
  - rewrite !distinct_cons, IH, mem_app. split.
    + intros [N [D1 [D2 X]]]. split; [split; tauto|]. split; [exact D2|]. intros x [->|I]; [tauto|auto].
    + intros [[N D1] [D2 X]]. split; [|split; [exact D1|split; [exact D2|intros x I; apply X; right; exact I]]].
      intros [M|M]; [contradiction|]. apply (X v); [left; reflexivity|exact M].
Qed.

(** ** where_ *)
Lemma where_in (P : val -> Prop) l r x : where_ P l r -> In x r <-> In x l /\ P x.
Proof.
  induction 1 as [|y l r H W IH|y l r H W IH]; cbn [In].
  - tauto.
  - rewrite IH. split; [intros [->|[A B]]; auto|intros [[->|A] B]; auto].
  - rewrite IH. split; [intros [A B]; auto|intros [[->|A] B]; [contradiction|auto]].
Qed.
Lemma where_mem (P : val -> Prop) l r x : (forall y z, same y z -> P y -> P z) -> where_ P l r -> mem r x <-> mem l x /\ P x.
Proof.
  intros C W. split.
  - intros [z [I S]]. apply (where_in P l r z W) in I as [I PZ]. split; [exists z; auto|eapply C; eauto].
  - intros [[z [I S]] PX]. exists z. split; [|exact S]. apply (where_in P l r z W). split; [exact I|]. apply (C x z); [apply same_sym; exact S|exact PX].
Qed.
Lemma where_ext (P Q : val -> Prop) l r : (forall x, In x l -> P x <-> Q x) -> where_ P l r -> where_ Q l r.
Proof.
  intros E W. induction W as [|y l r H W IH|y l r H W IH].
  - constructor.
  - apply wh_keep; [apply E; cbn; auto|]. apply IH. intros x I. apply E. right. exact I.
  - apply wh_drop; [rewrite <- E by (cbn; auto); exact H|]. apply IH. intros x I. apply E. right. exact I.
Qed.
Lemma where_and (P Q : val -> Prop) l r s : where_ P l r -> where_ Q r s -> where_ (fun x => P x /\ Q x) l s.
Proof.
  intros W. revert s. induction W as [|y l r H W IH|y l r H W IH]; intros s V.
  - inversion V. constructor.
  - inversion V; subst; [apply wh_keep|apply wh_drop]; auto; tauto.
  - apply wh_drop; [tauto|auto].
Qed.
Lemma where_app (P : val -> Prop) a b r s : where_ P a r -> where_ P b s -> where_ P (a ++ b) (r ++ s).
Proof. induction 1; cbn [app]; auto; intros; [apply wh_keep|apply wh_drop]; auto. Qed.
Lemma where_split (P : val -> Prop) a b r : where_ P (a ++ b) r -> exists r1 r2, where_ P a r1 /\ where_ P b r2 /\ r = r1 ++ r2.
Proof.
  revert r. induction a as [|x a IH]; intros r W; cbn [app] in W.
  - exists [], r. split; [constructor|auto].
  - inversion W as [|? ? r' PX W'|? ? r' PX W']; subst; destruct (IH _ W') as [r1 [r2 [W1 [W2 ->]]]].
    + exists (x :: r1), r2. split; [apply wh_keep; auto|auto].
    + exists r1, r2. split; [apply wh_drop; auto|auto].
Qed.
Lemma where_all (P : val -> Prop) l : (forall x, In x l -> P x) -> where_ P l l.
Proof. induction l as [|x l IH]; intros H; [constructor|]. apply wh_keep; [apply H; cbn; auto|apply IH; intros y I; apply H; cbn; auto]. Qed.
Lemma where_none (P : val -> Prop) l : (forall x, In x l -> ~ P x) -> where_ P l [].
Proof. induction l as [|x l IH]; intros H; [constructor|]. apply wh_drop; [apply H; cbn; auto|apply IH; intros y I; apply H; cbn; auto]. Qed.
Lemma where_distinct (P : val -> Prop) l r : where_ P l r -> distinct_members bytes_of l -> distinct_members bytes_of r.
Proof.
  induction 1 as [|y l r H W IH|y l r H W IH]; intros D; [exact D| |]; apply distinct_cons in D as [N D]; [|auto].
  apply distinct_cons. split; [|auto]. intros [z [I S]]. apply N. apply (where_in _ _ _ _ W) in I as [I _]. exists z. auto.
Qed.

(** ** Sets *)
Lemma made_inv m : made bytes_of m -> sinv m.
Proof. intros [ops [tr H]]. destruct (js_ops_refines bytes_of ops [] tr m (cinv_nil _ _) H) as [I _]. exact I. Qed.
Lemma made_ops m ops : made bytes_of m -> made bytes_of (snd (js_ops bytes_of m ops)).
Proof.
  intros [ops0 [tr H]]. exists (ops0 ++ ops), (tr ++ fst (js_ops bytes_of m ops)). revert tr H. generalize (@nil (svz * val)) as m0.
  induction ops0 as [|o ops0 IH]; intros m0 tr H; cbn [js_ops app] in *.
  - injection H as <- ->. destruct (js_ops bytes_of m ops); reflexivity.
  - destruct (js_op bytes_of m0 o) as [r m1]. destruct (js_ops bytes_of m1 ops0) as [tr2 m2] eqn:E. injection H as <- ->.
    rewrite (IH m1 tr2 E). reflexivity.
Qed.
Lemma made_nil : made bytes_of [].
Proof. exists [], []. reflexivity. Qed.
Lemma inv_distinct m : sinv m -> distinct_members bytes_of (js_iter m).
Proof. intros I i j a b A B NE. exact (cinv_distinct bytes_of (fun k => k) m i j a b I A B NE). Qed.
Lemma inv_tame m k : sinv m -> In k (js_iter m) -> ~ huge k.
Proof. intros [_ F] I. apply in_map_iff in I as [[s x] [<- I]]. eapply svz_ok. exact (F s x I). Qed.
Lemma tame_key k : ~ huge k -> exists s, same_value_zero bytes_of k = Ok s.
Proof. intros X. destruct (same_value_zero bytes_of k) as [s|e] eqn:E; eauto. apply svz_err in E as [_ E]. contradiction. Qed.
Lemma contains_spec m v : sinv m -> ~ huge v -> exists x, contains m v = Ok x /\ (x = true <-> mem (js_iter m) v).
Proof.
  intros I H. destruct (tame_key v H) as [s S]. unfold js_contains. rewrite S. cbn [bind]. eexists. split; [reflexivity|].
  pose proof (cinv_lookup bytes_of (fun k => k) m v s I S) as L. unfold dmem. destruct (dget svz_eqb s m) as [k|].
  - destruct L as [a [b [E [SM _]]]]. split; [|reflexivity]. intros _. exists k. split; [|exact SM]. unfold js_iter. rewrite E. apply in_or_app. cbn. auto.
  - destruct L as [N _]. split; [discriminate|]. intros [z [IN SM]]. exfalso. exact (N z IN SM).
Qed.
Lemma discard_spec m v : sinv m -> ~ huge v -> exists m', js_discard bytes_of m v = Ok m' /\ sinv m' /\
  where_ (fun x => ~ same v x) (js_iter m) (js_iter m').
Proof.
  intros I H. destruct (tame_key v H) as [s S]. unfold js_discard. rewrite S. cbn [bind]. eexists. split; [reflexivity|].
  pose proof (cinv_lookup bytes_of (fun k => k) m v s I S) as L. unfold dmem. pose proof (inv_distinct m I) as D. destruct (dget svz_eqb s m) as [k|].
  - split; [apply cinv_del; exact I|]. destruct L as [a [b [E [SM [_ DD]]]]]. unfold js_iter in *. rewrite DD. rewrite E in *.
    apply distinct_app in D as [D1 [D2 X]]. apply distinct_cons in D2 as [N D2]. apply where_app; [|apply wh_drop].
    + apply where_all. intros x IN VX. apply (X x IN). exists k. split; [cbn; auto|]. eapply same_trans; [exact SM|exact VX].
    + intros NS. apply NS. apply same_sym. exact SM.
    + apply where_all. intros x IN VX. apply N. exists x. split; [exact IN|]. apply same_sym. eapply same_trans; [exact SM|exact VX].
  - split; [exact I|]. destruct L as [N _]. apply where_all. intros x IN VX. apply (N x IN). apply same_sym. exact VX.
Qed.
Lemma select_where test (P : val -> Prop) l : (forall v, In v l -> exists x, test v = Ok x /\ (x = true <-> P v)) ->
  exists r, select test l = Ok r /\ where_ P l r.
Proof.
  induction l as [|v l IH]; intros H; cbn [select].
  - exists []. split; [reflexivity|constructor].
  - destruct (H v (or_introl eq_refl)) as [x [E X]]. rewrite E. cbn [bind]. destruct IH as [r [R W]]; [intros w I; apply H; right; exact I|].
    rewrite R. cbn [bind]. eexists. split; [reflexivity|]. destruct x; [apply wh_keep|apply wh_drop]; auto; [apply X; reflexivity|].
    intros PV. apply X in PV. discriminate.
Qed.
Lemma negated_spec test (P : val -> Prop) v : (exists x, test v = Ok x /\ (x = true <-> P v)) -> exists x, negated test v = Ok x /\ (x = true <-> ~ P v).
Proof.
  intros [x [E X]]. unfold negated. rewrite E. exists (negb x). split; [reflexivity|]. destruct x; cbn [negb].
  - split; [discriminate|]. intros N. exfalso. apply N, X. reflexivity.
  - split; [|reflexivity]. intros _ PV. apply X in PV. discriminate.
Qed.
Lemma add_member_mem l k l' x : add_member bytes_of l k l' -> mem l' x <-> mem l x \/ same k x.
Proof.
  intros [a k' b -> S|N].
  - rewrite !mem_app, !mem_cons. split; [tauto|]. intros [[M|[M|M]]|M]; auto. right. left. eapply same_trans; [apply same_sym; exact S|exact M].
  - rewrite mem_app, mem_cons. pose proof (mem_nil x). tauto.
Qed.
Lemma add_members_mem l ks l' x : add_members bytes_of l ks l' -> mem l' x <-> mem l x \/ mem ks x.
Proof.
  induction 1 as [l|l k r l1 l2 _ A _ IH].
  - pose proof (mem_nil x). tauto.
  - rewrite IH, (add_member_mem _ _ _ x A), mem_cons. tauto.
Qed.
Lemma add_members_fresh ks : forall l l', distinct_members bytes_of (l ++ ks) -> add_members bytes_of l ks l' -> l' = l ++ ks.
Proof.
  induction ks as [|k ks IH]; intros l l' D A; inversion A as [|? ? ? l1 ? _ A1 A2]; subst; [symmetry; apply app_nil_r|].
  destruct A1 as [a k' b -> S|N].
  - exfalso. apply distinct_app in D as [_ [_ X]]. apply (X k'); [apply in_or_app; cbn; auto|]. exists k. split; [cbn; auto|apply same_sym; exact S].
  - assert (l ++ k :: ks = (l ++ [k]) ++ ks) as E by (rewrite <- app_assoc; reflexivity). rewrite E in *. apply IH; assumption.
Qed.
Lemma union_spec m l : sinv m -> (forall k, In k l -> ~ huge k) ->
  exists m', js_union bytes_of m l = (Ok tt, m') /\ sinv m' /\ add_members bytes_of (js_iter m) l (js_iter m').
Proof.
  intros I T. destruct (js_union_spec bytes_of l m I) as [r [m' [E [I' O]]]]. exists m'.
  destruct O as [[-> A]|[p1 [k [p2 [-> [_ [H _]]]]]]]; [auto|]. exfalso. apply (T k); [apply in_or_app; cbn; auto|exact H].
Qed.
Lemma from_iterable_spec l : (forall k, In k l -> ~ huge k) -> exists m, from_iterable bytes_of l = Ok m /\ made bytes_of m /\
  (forall x, mem (js_iter m) x <-> mem l x) /\ (distinct_members bytes_of l -> js_iter m = l).
Proof.
  intros T. destruct (union_spec [] l (cinv_nil _ _) T) as [m [E [I A]]]. exists m. unfold from_iterable. rewrite E. split; [reflexivity|].
  split; [exists [SUnion l], [(SUnion l, SUnit)]; cbn [js_ops js_op]; rewrite E; reflexivity|]. split.
  - intros x. rewrite (add_members_mem _ _ _ x A). pose proof (mem_nil x). tauto.
  - intros D. apply (add_members_fresh l [] _ D A).
Qed.
Lemma union_order_spec b : forall a r, distinct_members bytes_of a -> distinct_members bytes_of b ->
  add_members bytes_of a b r -> union_order bytes_of a b r.
Proof.
  induction b as [|v b IH]; intros a r DA DB A; inversion A as [|? ? ? l1 ? _ A1 A2]; subst.
  - exists r, []. split; [|split; [constructor|symmetry; apply app_nil_r]].
    clear. induction r as [|x r IH]; constructor; [|exact IH]. split; [apply same_refl|]. right. split; [reflexivity|apply mem_nil].
  - apply distinct_cons in DB as [NB DB].
    assert (forall y, same v y /\ (In y b \/ (y = v /\ ~ mem b v)) -> y = v) as FIX.
    { intros y [S [I|[E _]]]; [|exact E]. exfalso. apply NB. exists y. split; [exact I|apply same_sym; exact S]. }
    destruct A1 as [a1 k' a2 -> S|N].
    + apply distinct_app in DA as [D1 [D2 X]]. apply distinct_cons in D2 as [N2 D2].
      assert (distinct_members bytes_of (a1 ++ v :: a2)) as DA1.
      { apply distinct_app. split; [exact D1|]. split; [apply distinct_cons; split; [|exact D2]|].
        - intros M. apply N2. apply (mem_same _ v k'); [apply same_sym; exact S|exact M].
        - intros x I M. apply (X x I). apply mem_cons. apply mem_cons in M as [M|M]; [left; eapply same_trans; eauto|auto]. }
      destruct (IH _ _ DA1 DB A2) as [a' [b' [F [W ->]]]]. exists a', b'. split; [|split; [|reflexivity]].
      * apply Forall2_app_inv_l in F as [p [q [F1 [F2 ->]]]]. inversion F2 as [|? y ? q' Y F3]; subst.
        assert (forall l l', (forall x, In x l -> ~ same v x) ->
                  Forall2 (fun x y => same x y /\ (In y b \/ (y = x /\ ~ mem b x))) l l' ->
                  Forall2 (fun x y => same x y /\ (In y (v :: b) \/ (y = x /\ ~ mem (v :: b) x))) l l') as UP.
        { intros l l' NV F. induction F as [|x z l l' [SX O] F IHF]; constructor; [|apply IHF; intros w I; apply NV; cbn; auto].
          split; [exact SX|]. destruct O as [O|[O1 O2]]; [left; right; exact O|]. right. split; [exact O1|]. rewrite mem_cons.
          intros [M|M]; [apply (NV x); cbn; auto|auto]. }
        apply Forall2_app; [|constructor].
        -- apply UP; [|exact F1]. intros x I SV. apply (X x I). exists k'. split; [cbn; auto|]. eapply same_trans; eauto.
        -- rewrite (FIX y Y). split; [exact S|left; cbn; auto].
        -- apply UP; [|exact F3]. intros x I SV. apply N2. exists x. split; [exact I|]. apply same_sym. eapply same_trans; eauto.
      * apply wh_drop.
        -- intros NM. apply NM. exists k'. split; [apply in_or_app; cbn; auto|exact S].
        -- revert W. apply where_ext. intros x _. rewrite !mem_app, !mem_cons.
           assert (same v x <-> same k' x) as ->; [|tauto]. split; intros H; eapply same_trans; eauto. apply same_sym. exact S.
    + apply not_member_mem in N.
      assert (distinct_members bytes_of (a ++ [v])) as DA1.
      { apply distinct_app. split; [exact DA|]. split; [apply distinct_cons; split; [apply mem_nil|intros [|] ? ? ? H; discriminate]|].
        intros x I M. apply mem_cons in M as [M|M]; [|exact (mem_nil _ M)]. apply N. exists x. split; [exact I|apply same_sym; exact M]. }
      destruct (IH _ _ DA1 DB A2) as [a' [b' [F [W ->]]]]. apply Forall2_app_inv_l in F as [p [q [F1 [F2 ->]]]].
      inversion F2 as [|? y ? q' Y F3]; subst. inversion F3; subst. rewrite (FIX y Y). exists p, (v :: b'). split; [|split].
      * clear -F1 N. assert (forall x, In x a -> ~ same v x) as NV by (intros x I SV; apply N; exists x; split; [exact I|apply same_sym; exact SV]).
        clear N. induction F1 as [|x z l l' [SX O] F IHF]; constructor; [|apply IHF; intros w I; apply NV; cbn; auto].
        split; [exact SX|]. destruct O as [O|[O1 O2]]; [left; right; exact O|]. right. split; [exact O1|]. rewrite mem_cons.
        intros [M|M]; [apply (NV x); cbn; auto|auto].
      * apply wh_keep; [exact N|]. revert W. apply where_ext. intros x I. rewrite mem_app, mem_cons. split; [tauto|].
        intros NA [M|[M|M]]; [contradiction| |exact (mem_nil _ M)]. apply NB. exists x. split; [exact I|apply same_sym; exact M].
      * rewrite <- app_assoc. reflexivity.
Qed.
Lemma discard_all_spec l : forall m, sinv m -> (forall k, In k l -> ~ huge k) ->
  exists m', discard_all bytes_of m l = (Ok tt, m') /\ m' = snd (js_ops bytes_of m (map SDiscard l)) /\
    where_ (fun x => ~ mem l x) (js_iter m) (js_iter m').
Proof.
  induction l as [|v l IH]; intros m I T; cbn [discard_all map js_ops].
  - exists m. split; [reflexivity|]. split; [reflexivity|]. apply where_all. intros x _. apply mem_nil.
  - destruct (discard_spec m v I (T v (or_introl eq_refl))) as [m1 [E [I1 W1]]]. cbn [js_op]. rewrite E.
    destruct (IH m1 I1) as [m2 [E2 [O2 W2]]]; [intros k K; apply T; right; exact K|]. exists m2. split; [exact E2|].
    split; [destruct (js_ops bytes_of m1 (map SDiscard l)); exact O2|].
    generalize (where_and _ _ _ _ _ W1 W2). apply where_ext. intros x _. rewrite mem_cons. tauto.
Qed.
Lemma toggle_all_spec l : forall m, sinv m -> distinct_members bytes_of l -> (forall k, In k l -> ~ huge k) ->
  exists m' ops, toggle_all bytes_of m l = (Ok tt, m') /\ m' = snd (js_ops bytes_of m ops) /\
    xor_order bytes_of (js_iter m) l (js_iter m').
Proof.
  induction l as [|v l IH]; intros m I D T; cbn [toggle_all].
  - exists m, []. split; [reflexivity|]. split; [reflexivity|]. exists (js_iter m), []. split; [|split; [constructor|symmetry; apply app_nil_r]].
    apply where_all. intros x _. apply mem_nil.
  - apply distinct_cons in D as [NV D]. pose proof (T v (or_introl eq_refl)) as HV.
    destruct (contains_spec m v I HV) as [x [E X]]. rewrite E. destruct x.
    + destruct (discard_spec m v I HV) as [m1 [E1 [I1 W1]]]. rewrite E1.
      destruct (IH m1 I1 D) as [m2 [ops [E2 [O2 [r1 [r2 [R1 [R2 E3]]]]]]]]; [intros k K; apply T; right; exact K|].
      exists m2, (SDiscard v :: ops). split; [exact E2|]. split.
      { cbn [js_ops js_op]. rewrite E1. destruct (js_ops bytes_of m1 ops); exact O2. }
      exists r1, r2. split; [|split; [|exact E3]].
      * generalize (where_and _ _ _ _ _ W1 R1). apply where_ext. intros y _. rewrite mem_cons. tauto.
      * apply wh_drop; [intros N; apply N; apply X; reflexivity|]. revert R2. apply where_ext. intros y IY.
        rewrite (where_mem _ _ _ y (fun y z S H K => H (same_trans v z y K (same_sym y z S))) W1).
        assert (~ same v y) by (intros S; apply NV; exists y; split; [exact IY|apply same_sym; exact S]). tauto.
    + assert (~ mem (js_iter m) v) as NM by (intros M; apply X in M; discriminate).
      pose proof (js_add_spec bytes_of m v I) as AS. destruct (js_add bytes_of m v) as [m1|e] eqn:E1; [|destruct AS; contradiction].
      destruct AS as [I1 [_ AM]]. assert (js_iter m1 = js_iter m ++ [v]) as EM.
      { inversion AM as [a k' b E3 S|? E3]; [|symmetry; exact E3]. exfalso. apply NM. exists k'. split; [unfold js_iter; rewrite E3; apply in_or_app; cbn; auto|exact S]. }
      destruct (IH m1 I1 D) as [m2 [ops [E2 [O2 [r1 [r2 [R1 [R2 E3]]]]]]]]; [intros k K; apply T; right; exact K|].
      exists m2, (SAdd v :: ops). split; [exact E2|]. split.
      { cbn [js_ops js_op]. rewrite E1. destruct (js_ops bytes_of m1 ops); exact O2. }
      rewrite EM in *. apply where_split in R1 as [r3 [r4 [R3 [R4 ->]]]].
      assert (r4 = [v]) as -> by (inversion R4 as [|? ? ? ? W|? ? ? W]; subst; [inversion W; reflexivity|contradiction]).
      exists r3, (v :: r2). split; [|split; [apply wh_keep; [exact NM|]|]].
      * revert R3. apply where_ext. intros y IY. rewrite mem_cons.
        assert (~ same v y) by (intros S; apply NM; exists y; split; [exact IY|apply same_sym; exact S]). tauto.
      * revert R2. apply where_ext. intros y IY. rewrite mem_app, mem_cons.
        assert (~ same v y) by (intros S; apply NV; exists y; split; [exact IY|apply same_sym; exact S]). pose proof (mem_nil y). tauto.
      * rewrite E3, <- app_assoc. reflexivity.
Qed.

Lemma made_tame m k : made bytes_of m -> In k (js_iter m) -> ~ huge k.
Proof. intros M. apply inv_tame, made_inv, M. Qed.
Lemma made_distinct m : made bytes_of m -> distinct_members bytes_of (js_iter m).
Proof. intros M. apply inv_distinct, made_inv, M. Qed.
Lemma operand_tame a o k : made bytes_of a -> js_operand bytes_of o -> In k (iterate a o) -> ~ huge k.
Proof.
  destruct o as [|m|l c|l]; cbn [js_operand iterate]; intros A O.
  - apply made_tame, A.
  - apply made_tame, O.
  - contradiction.
  - apply O.
Qed.
(** The other operand as a set *)
Lemma as_set_spec a o : made bytes_of a -> js_operand bytes_of o -> exists m, as_set bytes_of a o = Ok (js_iter m, contains m) /\ made bytes_of m /\
  (forall x, mem (js_iter m) x <-> mem (iterate a o) x) /\ (distinct_members bytes_of (iterate a o) -> js_iter m = iterate a o).
Proof.
  destruct o as [|m|l c|l]; cbn [js_operand iterate as_set]; intros A O.
  - exists a. auto with *.
  - exists m. auto with *.
  - contradiction.
  - destruct (from_iterable_spec l O) as [m [E [M R]]]. rewrite E. exists m. split; [reflexivity|auto].
Qed.
Lemma mem_closed l y z : same y z -> mem l y -> mem l z.
Proof. apply mem_same. Qed.
Lemma mem_not_closed l y z : same y z -> ~ mem l y -> ~ mem l z.
Proof. intros S N M. apply N. apply (mem_same l z y); [apply same_sym; exact S|exact M]. Qed.
Lemma from_where (P : val -> Prop) l r : (forall y z, same y z -> P y -> P z) -> (forall k, In k l -> ~ huge k) -> where_ P l r ->
  exists m, from_iterable bytes_of r = Ok m /\ made bytes_of m /\ (forall x, mem (js_iter m) x <-> mem l x /\ P x) /\
    (distinct_members bytes_of l -> where_ P l (js_iter m)).
Proof.
  intros C T W. destruct (from_iterable_spec r) as [m [E [M [Q D]]]].
  { intros k I. apply T. apply (where_in P l r k W) in I. tauto. }
  exists m. split; [exact E|]. split; [exact M|]. split.
  - intros x. rewrite Q. apply where_mem; assumption.
  - intros DL. rewrite D; [exact W|]. eapply where_distinct; eauto.
Qed.

Section Cases.
Variables (a : jsset) (o : operand).
Hypothesis A : made bytes_of a.
Hypothesis O : js_operand bytes_of o.
Notation la := (js_iter a).
Notation lo := (iterate a o).

Lemma and_spec : exists m, set_and bytes_of a o = Ok m /\ made bytes_of m /\ (forall x, mem (js_iter m) x <-> mem la x /\ mem lo x) /\
  (distinct_members bytes_of lo -> where_ (mem la) lo (js_iter m)).
Proof.
  destruct (select_where (contains a) (mem la) lo) as [r [R W]].
  { intros v I. apply contains_spec; [apply made_inv, A|eapply operand_tame; eauto]. }
  unfold set_and. rewrite R. cbn [bind]. destruct (from_where _ _ _ (mem_closed la) (fun k => operand_tame a o k A O) W) as [m [E [M [Q D]]]].
  exists m. split; [exact E|]. split; [exact M|]. split; [intros x; rewrite Q; tauto|exact D].
Qed.
Lemma or_spec : exists m, set_or bytes_of a o = Ok m /\ made bytes_of m /\ (forall x, mem (js_iter m) x <-> mem la x \/ mem lo x) /\
  (distinct_members bytes_of lo -> union_order bytes_of la lo (js_iter m)).
Proof.
  destruct (from_iterable_spec (la ++ lo)) as [m [E [M [Q _]]]].
  { intros k I. apply in_app_or in I as [I|I]; [eapply made_tame; eauto|eapply operand_tame; eauto]. }
  exists m. split; [exact E|]. split; [exact M|]. split; [intros x; rewrite Q; apply mem_app|]. intros D.
  destruct (union_spec [] la (cinv_nil _ _) (fun k => made_tame a k A)) as [m1 [E1 [I1 A1]]].
  destruct (union_spec m1 lo I1 (fun k => operand_tame a o k A O)) as [m2 [E2 [I2 A2]]].
  assert (js_iter m1 = la) as EA by (apply (add_members_fresh la [] _ (made_distinct a A) A1)).
  assert (js_union bytes_of [] (la ++ lo) = (Ok tt, m2)) as E3.
  { clear -E1 E2. revert E1. generalize (@nil (svz * val)) as m0. generalize la as l. induction l as [|v l IH]; intros m0 E1; cbn [js_union app] in *.
    - injection E1 as <-. exact E2.
    - destruct (js_add bytes_of m0 v); [|discriminate]. apply IH. exact E1. }
  unfold set_or, from_iterable in E. rewrite E3 in E. injection E as <-. rewrite EA in A2. apply union_order_spec; [apply made_distinct, A|exact D|exact A2].
Qed.
Lemma sub_spec : exists m, set_sub bytes_of a o = Ok m /\ made bytes_of m /\ (forall x, mem (js_iter m) x <-> mem la x /\ ~ mem lo x) /\
  where_ (fun x => ~ mem lo x) la (js_iter m).
Proof.
  destruct (as_set_spec a o A O) as [b [EB [MB [QB DB]]]]. unfold set_sub. rewrite EB. cbn [bind fst snd].
  destruct (select_where (negated (contains b)) (fun x => ~ mem (js_iter b) x) la) as [r [R W]].
  { intros v I. apply (negated_spec (contains b) (mem (js_iter b))). apply contains_spec; [apply made_inv, MB|exact (made_tame a v A I)]. }
  rewrite R. cbn [bind]. destruct (from_where _ _ _ (mem_not_closed _) (fun k => made_tame a k A) W) as [m [E [M [Q D]]]].
  exists m. split; [exact E|]. split; [exact M|]. split; [intros x; rewrite Q, QB; tauto|].
  generalize (D (made_distinct a A)). apply where_ext. intros x _. rewrite QB. tauto.
Qed.
Lemma rsub_spec : exists m, set_rsub bytes_of a o = Ok m /\ made bytes_of m /\ (forall x, mem (js_iter m) x <-> mem lo x /\ ~ mem la x) /\
  (distinct_members bytes_of lo -> where_ (fun x => ~ mem la x) lo (js_iter m)).
Proof.
  destruct (as_set_spec a o A O) as [b [EB [MB [QB DB]]]]. unfold set_rsub. rewrite EB. cbn [bind fst snd].
  destruct (select_where (negated (contains a)) (fun x => ~ mem la x) (js_iter b)) as [r [R W]].
  { intros v I. apply (negated_spec (contains a) (mem (js_iter a))). apply contains_spec; [apply made_inv, A|exact (made_tame b v MB I)]. }
  rewrite R. cbn [bind]. destruct (from_where _ _ _ (mem_not_closed _) (fun k => made_tame b k MB) W) as [m [E [M [Q D]]]].
  exists m. split; [exact E|]. split; [exact M|]. split; [intros x; rewrite Q, QB; tauto|].
  intros DL. rewrite <- (DB DL). apply D, made_distinct, MB.
Qed.
Lemma xor_spec : exists m, set_xor bytes_of a o = Ok m /\ made bytes_of m /\
  (forall x, mem (js_iter m) x <-> (mem la x /\ ~ mem lo x) \/ (mem lo x /\ ~ mem la x)) /\
  (distinct_members bytes_of lo -> xor_order bytes_of la lo (js_iter m)).
Proof.
  destruct (as_set_spec a o A O) as [b [EB [MB [QB DB]]]]. unfold set_xor. rewrite EB. cbn [bind fst snd].
  destruct (select_where (negated (contains b)) (fun x => ~ mem (js_iter b) x) la) as [r [R W]].
  { intros v I. apply (negated_spec (contains b) (mem (js_iter b))). apply contains_spec; [apply made_inv, MB|exact (made_tame a v A I)]. }
  rewrite R. cbn [bind]. destruct (from_where _ _ _ (mem_not_closed _) (fun k => made_tame a k A) W) as [m1 [E1 [M1 [Q1 D1]]]].
  rewrite E1. cbn [bind].
  destruct (select_where (negated (contains a)) (fun x => ~ mem la x) (js_iter b)) as [r2 [R2 W2]].
  { intros v I. apply (negated_spec (contains a) (mem (js_iter a))). apply contains_spec; [apply made_inv, A|exact (made_tame b v MB I)]. }
  rewrite R2. cbn [bind]. specialize (D1 (made_distinct a A)).
  assert (forall x, mem r2 x <-> mem (js_iter b) x /\ ~ mem la x) as Q2 by (intros x; exact (where_mem _ _ _ x (mem_not_closed la) W2)).
  destruct (from_iterable_spec (js_iter m1 ++ r2)) as [m [E [M [Q D]]]].
  { intros k I. apply in_app_or in I as [I|I]; [exact (made_tame m1 k M1 I)|]. apply (where_in _ _ _ _ W2) in I as [I _]. exact (made_tame b k MB I). }
  exists m. split; [exact E|]. split; [exact M|]. split.
  - intros x. rewrite Q, mem_app, Q1, Q2, QB. tauto.
  - intros DL. rewrite D.
    + exists (js_iter m1), r2. split; [|split; [|reflexivity]].
      * revert D1. apply where_ext. intros x _. rewrite QB. tauto.
      * rewrite <- (DB DL). exact W2.
    + apply distinct_app. split; [apply made_distinct, M1|]. split; [eapply where_distinct; [exact W2|apply made_distinct, MB]|].
      intros x I X. apply Q2 in X as [X _]. apply mem_in in I. apply Q1 in I. tauto.
Qed.
Lemma iand_spec : exists m, set_iand bytes_of a o = (Ok tt, m) /\ made bytes_of m /\ where_ (mem lo) la (js_iter m).
Proof.
  destruct sub_spec as [d [E [M [Q W]]]]. unfold set_iand. rewrite E.
  destruct (discard_all_spec (js_iter d) a (made_inv a A) (fun k => made_tame d k M)) as [m [E1 [-> W1]]].
  eexists. split; [exact E1|]. split; [apply made_ops, A|]. revert W1. apply where_ext. intros x I. rewrite Q.
  (* membership is decided by [in] *)
  destruct (as_set_spec a o A O) as [b [_ [MB [QB _]]]].
  destruct (contains_spec b x (made_inv b MB) (made_tame a x A I)) as [[|] [_ X]]; rewrite QB in X; pose proof (mem_in la x I).
  - assert (mem lo x) by (apply X; reflexivity). tauto.
  - assert (~ mem lo x) by (intros H1; apply X in H1; discriminate). tauto.
Qed.
Lemma isub_spec : exists m, set_isub bytes_of a o = (Ok tt, m) /\ made bytes_of m /\ where_ (fun x => ~ mem lo x) la (js_iter m).
Proof.
  destruct (discard_all_spec lo a (made_inv a A) (fun k => operand_tame a o k A O)) as [m [E1 [EM W1]]].
  destruct o as [|b|l c|l] eqn:EO; cbn [set_isub].
  - exists []. split; [reflexivity|]. split; [apply made_nil|]. apply where_none. intros x I N. apply N. apply mem_in. exact I.
  - exists m. split; [exact E1|]. split; [subst m; apply made_ops, A|exact W1].
  - contradiction.
  - exists m. split; [exact E1|]. split; [subst m; apply made_ops, A|exact W1].
Qed.
Lemma ixor_spec : exists m, set_ixor bytes_of a o = (Ok tt, m) /\ made bytes_of m /\
  (forall x, mem (js_iter m) x <-> (mem la x /\ ~ mem lo x) \/ (mem lo x /\ ~ mem la x)) /\
  (distinct_members bytes_of lo -> xor_order bytes_of la lo (js_iter m)).
Proof.
  destruct (as_set_spec a o A O) as [b [EB [MB [QB DB]]]].
  destruct (toggle_all_spec (js_iter b) a (made_inv a A) (made_distinct b MB) (fun k => made_tame b k MB)) as [m [ops [E1 [EM W1]]]].
  assert (forall x m, xor_order bytes_of la (js_iter b) (js_iter m) -> mem (js_iter m) x <-> (mem la x /\ ~ mem lo x) \/ (mem lo x /\ ~ mem la x)) as MX.
  { intros x m' [a' [b' [X1 [X2 ->]]]]. rewrite mem_app, (where_mem _ _ _ x (mem_not_closed _) X1), (where_mem _ _ _ x (mem_not_closed _) X2), QB. tauto. }
  assert (exists m, toggle_all bytes_of a (js_iter b) = (Ok tt, m) /\ made bytes_of m /\
    (forall x, mem (js_iter m) x <-> (mem la x /\ ~ mem lo x) \/ (mem lo x /\ ~ mem la x)) /\
    (distinct_members bytes_of lo -> xor_order bytes_of la lo (js_iter m))) as R.
  { exists m. split; [exact E1|]. split; [subst m; apply made_ops, A|]. split; [intros x; apply MX, W1|].
    intros D. rewrite <- (DB D). exact W1. }
  unfold set_ixor. rewrite EB. destruct o as [|c|l c|l] eqn:EO; try exact R.
  exists []. split; [reflexivity|]. split; [apply made_nil|]. cbn [iterate]. split; [intros x; pose proof (mem_nil x); tauto|].
  intros _. exists [], []. split; [|split; [|reflexivity]]; apply where_none; intros x I N; apply N, mem_in, I.
Qed.
Lemma ior_spec : exists m, set_ior bytes_of a o = (Ok tt, m) /\ made bytes_of m /\ (forall x, mem (js_iter m) x <-> mem la x \/ mem lo x) /\
  (distinct_members bytes_of lo -> union_order bytes_of la lo (js_iter m)).
Proof.
  destruct (union_spec a lo (made_inv a A) (fun k => operand_tame a o k A O)) as [m [E [I AM]]].
  exists m. split; [exact E|]. split.
  { pose proof (made_ops a [SUnion lo] A) as M. cbn [js_ops js_op] in M. rewrite E in M. exact M. }
  split; [intros x; apply add_members_mem, AM|]. intros D. apply union_order_spec; [apply made_distinct, A|exact D|exact AM].
Qed.
Lemma isdisjoint_spec : exists x, isdisjoint bytes_of a o = Ok x /\ (x = true <-> forall v, ~ (mem la v /\ mem lo v)).
Proof.
  unfold isdisjoint. assert (forall k, In k lo -> ~ huge k) as T by (intros k; apply operand_tame; assumption).
  assert (forall l, (forall k, In k l -> ~ huge k) -> exists x, none_in (contains a) l = Ok x /\ (x = true <-> forall v, ~ (mem la v /\ mem l v))) as R; [|exact (R lo T)].
  induction l as [|v l IH]; intros TL; cbn [none_in].
  - exists true. split; [reflexivity|]. split; [|reflexivity]. intros _ w [_ M]. exact (mem_nil w M).
  - destruct (contains_spec a v (made_inv a A) (TL v (or_introl eq_refl))) as [x [E X]]. rewrite E. cbn [bind]. destruct x.
    + exists false. split; [reflexivity|]. split; [discriminate|]. intros H. exfalso. apply (H v). split; [apply X; reflexivity|]. apply mem_in. cbn. auto.
    + destruct IH as [x [E1 X1]]; [intros k I; apply TL; right; exact I|]. exists x. split; [exact E1|]. rewrite X1. split; intros H w [M1 M2].
      * apply mem_cons in M2 as [M2|M2]; [|apply (H w); auto]. enough (false = true) by discriminate. apply X.
        apply (mem_same la w v); [apply same_sym; exact M2|exact M1].
      * apply (H w). split; [exact M1|]. apply mem_cons. auto.
Qed.
End Cases.

Lemma all_in_spec b l : made bytes_of b -> (forall k, In k l -> ~ huge k) ->
  exists x, all_in (contains b) l = Ok x /\ (x = true <-> forall v, mem l v -> mem (js_iter b) v).
Proof.
  intros B. induction l as [|v l IH]; intros T; cbn [all_in].
  - exists true. split; [reflexivity|]. split; [|reflexivity]. intros _ w M. exfalso. exact (mem_nil w M).
  - destruct (contains_spec b v (made_inv b B) (T v (or_introl eq_refl))) as [x [E X]]. rewrite E. cbn [bind]. destruct x.
    + destruct IH as [x [E1 X1]]; [intros k I; apply T; right; exact I|]. exists x. split; [exact E1|]. rewrite X1. split; intros H w M.
      * apply mem_cons in M as [M|M]; [|auto]. apply (mem_same _ v w M). apply X. reflexivity.
      * apply H. apply mem_cons. auto.
    + exists false. split; [reflexivity|]. split; [discriminate|]. intros H. apply X. apply H. apply mem_in. cbn. auto.
Qed.
(** No more members than a superset has *)
Lemma subset_length (l : list val) : forall b, distinct_members bytes_of l -> (forall v, mem l v -> mem b v) -> (length l <= length b)%nat.
Proof.
  induction l as [|v l IH]; intros b D H; [cbn [length]; apply Nat.le_0_l|]. apply distinct_cons in D as [N D].
  destruct (H v (mem_in (v :: l) v (or_introl eq_refl))) as [z [I S]]. apply in_split in I as [b1 [b2 ->]].
  assert (length l <= length (b1 ++ b2))%nat as L.
  { apply IH; [exact D|]. intros w M. assert (mem (b1 ++ z :: b2) w) as MB by (apply H, mem_cons; auto).
    rewrite mem_app, mem_cons in *. destruct MB as [MB|[MB|MB]]; auto. exfalso. apply N.
    apply (mem_same l w v); [|exact M]. eapply same_trans; [apply same_sym; exact MB|exact S]. }
  rewrite app_length in *. cbn [length]. lia.
Qed.
Lemma le_spec a b : made bytes_of a -> made bytes_of b ->
  exists x, set_le bytes_of a b = Ok x /\ (x = true <-> forall v, mem (js_iter a) v -> mem (js_iter b) v).
Proof.
  intros A B. unfold set_le. destruct (js_len b <? js_len a) eqn:L; [|apply all_in_spec; [exact B|intros k; apply made_tame, A]].
  exists false. split; [reflexivity|]. split; [discriminate|]. intros H. exfalso. apply subset_length in H; [|apply made_distinct, A].
  unfold js_iter in H. rewrite !map_length in H. apply Z.ltb_lt in L. unfold js_len in L. lia.
Qed.
Lemma ge_le a b : set_ge bytes_of a b = set_le bytes_of b a.
Proof. reflexivity. Qed.
Lemma gt_lt a b : set_gt bytes_of a b = set_lt bytes_of b a.
Proof. reflexivity. Qed.
Lemma lt_spec a b : made bytes_of a -> made bytes_of b ->
  exists x, set_lt bytes_of a b = Ok x /\ (x = true <-> (forall v, mem (js_iter a) v -> mem (js_iter b) v) /\ ~ forall v, mem (js_iter b) v -> mem (js_iter a) v).
Proof.
  intros A B. unfold set_lt. destruct (js_len a <? js_len b) eqn:L.
  - destruct (le_spec a b A B) as [x [E X]]. exists x. split; [exact E|]. rewrite X. split; [|tauto]. intros H. split; [exact H|].
    intros G. apply subset_length in G; [|apply made_distinct, B]. unfold js_iter in G. rewrite !map_length in G. apply Z.ltb_lt in L. unfold js_len in L. lia.
  - exists false. split; [reflexivity|]. split; [discriminate|]. intros [H G]. exfalso. apply G. intros v MV.
    (* equally long, so every member of b is one of a *)
    destruct (le_spec b a B A) as [x [E X]]. destruct x; [apply (proj1 X eq_refl), MV|]. exfalso.
    assert (exists z, In z (js_iter b) /\ ~ mem (js_iter a) z) as [z [IZ NZ]].
    { clear -E A B L H X. destruct (all_in_spec a (js_iter b) A (fun k => made_tame b k B)) as [y [E1 Y]].
      assert (y = false) as -> by (destruct y; [|reflexivity]; enough (false = true) by discriminate; apply X, Y; reflexivity).
      clear Y E X L H. assert (forall k, In k (js_iter b) -> ~ huge k) as T by (intros k; apply made_tame, B). revert T E1. generalize (js_iter b) as l.
      induction l as [|w l IH]; intros T E1; cbn [all_in] in E1; [discriminate|].
      destruct (contains_spec a w (made_inv a A) (T w (or_introl eq_refl))) as [x [E X]]. rewrite E in E1. cbn [bind] in E1. destruct x.
      - destruct IH as [z [I N]]; [intros k I; apply T; right; exact I|exact E1|]. exists z. split; [right; exact I|exact N].
      - exists w. split; [left; reflexivity|]. intros M. apply X in M. discriminate. }
    assert (length (z :: js_iter a) <= length (js_iter b))%nat as LL.
    { apply subset_length; [apply distinct_cons; split; [exact NZ|apply made_distinct, A]|].
      intros w M. apply mem_cons in M as [M|M]; [exists z; auto|auto]. }
    cbn [length] in LL. unfold js_iter in LL. rewrite !map_length in LL. apply Z.ltb_ge in L. unfold js_len in L. lia.
Qed.
End Facts.

(** * C59 *)
Section Property.
Variable bytes_of : nat -> option bytes.
Notation mem := (member bytes_of).

(** What the operators return: new sets with exactly the members set theory says, under JavaScript's equality. *)
Theorem C59_members : forall a o, made bytes_of a -> js_operand bytes_of o ->
  let A := mem (js_iter a) in let B := mem (iterate a o) in
  let gives (r : result jsset) (P : val -> Prop) := exists m, r = Ok m /\ made bytes_of m /\ forall x, mem (js_iter m) x <-> P x in
  gives (set_and bytes_of a o) (fun x => A x /\ B x) /\
  gives (set_or bytes_of a o) (fun x => A x \/ B x) /\
  gives (set_sub bytes_of a o) (fun x => A x /\ ~ B x) /\
  gives (set_rsub bytes_of a o) (fun x => B x /\ ~ A x) /\
  gives (set_xor bytes_of a o) (fun x => (A x /\ ~ B x) \/ (B x /\ ~ A x)) /\
  exists x, isdisjoint bytes_of a o = Ok x /\ (x = true <-> forall v, ~ (A v /\ B v)).
Proof.
  intros a o MA MO A B gives. subst A B gives. cbn beta.
  split; [destruct (and_spec bytes_of a o MA MO) as [m [E [M [Q _]]]]; eauto|].
  split; [destruct (or_spec bytes_of a o MA MO) as [m [E [M [Q _]]]]; eauto|].
  split; [destruct (sub_spec bytes_of a o MA MO) as [m [E [M [Q _]]]]; eauto|].
  split; [destruct (rsub_spec bytes_of a o MA MO) as [m [E [M [Q _]]]]; eauto|].
  split; [destruct (xor_spec bytes_of a o MA MO) as [m [E [M [Q _]]]]; eauto|].
  apply isdisjoint_spec; assumption.
Qed.

(** The operators that change the set: they end, raise nothing and leave the same members. *)
Theorem C59_in_place : forall a o, made bytes_of a -> js_operand bytes_of o ->
  let A := mem (js_iter a) in let B := mem (iterate a o) in
  let leaves (r : result unit * jsset) (P : val -> Prop) := exists m, r = (Ok tt, m) /\ made bytes_of m /\ forall x, mem (js_iter m) x <-> P x in
  leaves (set_iand bytes_of a o) (fun x => A x /\ B x) /\
  leaves (set_ior bytes_of a o) (fun x => A x \/ B x) /\
  leaves (set_isub bytes_of a o) (fun x => A x /\ ~ B x) /\
  leaves (set_ixor bytes_of a o) (fun x => (A x /\ ~ B x) \/ (B x /\ ~ A x)).
Proof.
  intros a o MA MO A B leaves. subst A B leaves. cbn beta.
  split; [destruct (iand_spec bytes_of a o MA MO) as [m [E [M W]]]; exists m; split; [exact E|]; split; [exact M|];
          intros x; exact (where_mem _ _ _ _ x (mem_closed bytes_of _) W)|].
  split; [destruct (ior_spec bytes_of a o MA MO) as [m [E [M [Q _]]]]; eauto|].
  split; [destruct (isub_spec bytes_of a o MA MO) as [m [E [M W]]]; exists m; split; [exact E|]; split; [exact M|];
          intros x; exact (where_mem _ _ _ _ x (mem_not_closed bytes_of _) W)|].
  destruct (ixor_spec bytes_of a o MA MO) as [m [E [M [Q _]]]]; eauto.
Qed.

(** The order of the results, and which of two same values stays, when the other operand repeats no value (a JSSet never
    does). [&] keeps the other operand's values in its order; [&=] keeps the set's own. *)
Theorem C59_order : forall a o, made bytes_of a -> js_operand bytes_of o -> distinct_members bytes_of (iterate a o) ->
  let la := js_iter a in let lo := iterate a o in
  let A := mem la in let B := mem lo in
  let returns (r : result jsset) (P : list val -> Prop) := exists m, r = Ok m /\ P (js_iter m) in
  let leaves (r : result unit * jsset) (P : list val -> Prop) := exists m, r = (Ok tt, m) /\ P (js_iter m) in
  returns (set_and bytes_of a o) (where_ A lo) /\ leaves (set_iand bytes_of a o) (where_ B la) /\
  returns (set_or bytes_of a o) (union_order bytes_of la lo) /\ leaves (set_ior bytes_of a o) (union_order bytes_of la lo) /\
  returns (set_sub bytes_of a o) (where_ (fun x => ~ B x) la) /\ leaves (set_isub bytes_of a o) (where_ (fun x => ~ B x) la) /\
  returns (set_rsub bytes_of a o) (where_ (fun x => ~ A x) lo) /\
  returns (set_xor bytes_of a o) (xor_order bytes_of la lo) /\ leaves (set_ixor bytes_of a o) (xor_order bytes_of la lo).
Proof.
  intros a o MA MO D la lo A B returns leaves. subst la lo A B returns leaves. cbn beta.
  split; [destruct (and_spec bytes_of a o MA MO) as [m [E [M [Q W]]]]; eauto|].
  split; [destruct (iand_spec bytes_of a o MA MO) as [m [E [M W]]]; eauto|].
  split; [destruct (or_spec bytes_of a o MA MO) as [m [E [M [Q W]]]]; eauto|].
  split; [destruct (ior_spec bytes_of a o MA MO) as [m [E [M [Q W]]]]; eauto|].
  split; [destruct (sub_spec bytes_of a o MA MO) as [m [E [M [Q W]]]]; eauto|].
  split; [destruct (isub_spec bytes_of a o MA MO) as [m [E [M W]]]; eauto|].
  split; [destruct (rsub_spec bytes_of a o MA MO) as [m [E [M [Q W]]]]; eauto|].
  split; [destruct (xor_spec bytes_of a o MA MO) as [m [E [M [Q W]]]]; eauto|].
  destruct (ixor_spec bytes_of a o MA MO) as [m [E [M [Q W]]]]; eauto.
Qed.

(** Comparisons of two JSSets are the subset relations. *)
Theorem C59_comparisons : forall a b, made bytes_of a -> made bytes_of b ->
  let sub l r := forall v, mem (js_iter l) v -> mem (js_iter r) v in
  let says (r : result bool) (P : Prop) := exists x, r = Ok x /\ (x = true <-> P) in
  says (set_le bytes_of a b) (sub a b) /\ says (set_ge bytes_of a b) (sub b a) /\
  says (set_lt bytes_of a b) (sub a b /\ ~ sub b a) /\ says (set_gt bytes_of a b) (sub b a /\ ~ sub a b).
Proof.
  intros a b A B sub says. subst sub says. cbn beta. rewrite ge_le, gt_lt.
  split; [apply le_spec; assumption|]. split; [apply le_spec; assumption|]. split; apply lt_spec; assumption.
Qed.
End Property.

(** A case: {1, -0.0, "a"} and {"b", 1.0, 0}: & gives 1.0 and 0, &= leaves 1 and -0.0. *)
Definition no_bytes (_ : nat) : option bytes := None.
Definition ex_a : jsset := snd (js_ops no_bytes [] [SUnion [VInt 1; VFloat 0x8000000000000000; VStr [97%N]]]).
Definition ex_b : jsset := snd (js_ops no_bytes [] [SUnion [VStr [98%N]; VFloat 0x3FF0000000000000; VInt 0]]).
Example C59_case : made no_bytes ex_a /\ js_operand no_bytes (OJSSet ex_b) /\ distinct_members no_bytes (iterate ex_a (OJSSet ex_b)) /\
  (do m <- set_and no_bytes ex_a (OJSSet ex_b); Ok (js_iter m)) = Ok [VFloat 0x3FF0000000000000; VInt 0] /\
  js_iter (snd (set_iand no_bytes ex_a (OJSSet ex_b))) = [VInt 1; VFloat 0x8000000000000000] /\
  (do m <- set_xor no_bytes ex_a (OJSSet ex_b); Ok (js_iter m)) = Ok [VStr [97%N]; VStr [98%N]].
Proof.
  assert (forall ops, made no_bytes (snd (js_ops no_bytes [] ops))) as M by (intros ops; exists ops, (fst (js_ops no_bytes [] ops)); destruct (js_ops no_bytes [] ops); reflexivity).
  split; [apply M|]. split; [apply M|]. split; [apply made_distinct, M|]. repeat split; vm_compute; reflexivity.
Qed.

(** With a Set of another class as the other operand the claim is false: a Python set decides membership by ==, so
    JSSet([True]) - {1} is empty and JSSet([True]) - [1] is not. *)
Theorem C59_refuted_python_set : exists a l, made no_bytes a /\
  js_iter a = [VBool true] /\ l = [VInt 1] /\ ~ member no_bytes l (VBool true) /\
  set_sub no_bytes a (python_set [] l) = Ok [] /\
  (do m <- set_sub no_bytes a (OIterable l); Ok (js_iter m)) = Ok [VBool true].
Proof.
  exists (snd (js_ops no_bytes [] [SAdd (VBool true)])), [VInt 1]. split; [apply made_ops, made_nil|]. split; [vm_compute; reflexivity|].
  split; [reflexivity|]. split; [intros [y [[<-|[]] S]]; exact S|]. split; vm_compute; reflexivity.
Qed.

Print Assumptions C59_members.
Print Assumptions C59_in_place.
Print Assumptions C59_order.
Print Assumptions C59_comparisons.
Print Assumptions C59_refuted_python_set.
