(** Copies compare equal. *)
From Coq Require Import List NArith ZArith Bool Arith Lia.
From Verif Require Import Base Dict SpecNumber ModelTags ModelArray ModelValue ModelObject ModelMap ModelHeap ModelEncode ModelReprText
  ValueFacts ArrayFacts ArrayFacts2 ArrayFacts3 MapFacts SpecRepr ReprFacts3 ReprFacts6 ModelEq SpecEq Prop_Eq.
Import ListNotations.
Open Scope list_scope.
Open Scope nat_scope.

Lemma Forall2_inside (P Q : val -> Prop) (R T : val -> val -> Prop) l m : Forall2 R l m -> (forall v, In v l -> P v) -> (forall w, In w m -> Q w) -> (forall v w, P v -> Q w -> R v w -> T v w) -> Forall2 T l m.
Proof.
  intros F PV QW W. induction F as [|v w l m C F IH]; constructor.
  - apply W; [apply PV; left; reflexivity|apply QW; left; reflexivity|exact C].
  - apply IH; intros u I; [apply PV|apply QW]; right; exact I.
Qed.
Lemma Forall2_pairs (R T : val -> val -> Prop) l m : Forall2 R (map fst l) (map fst m) -> Forall2 T (map snd l) (map snd m) -> Forall2 (fun p q => R (fst p) (fst q) /\ T (snd p) (snd q)) l m.
Proof. revert m. induction l as [|x l IH]; intros [|y m] F1 F2; inversion F1; inversion F2; subst; constructor; auto. Qed.

Section Equal.
Variable H N : heap.
Variable leaf_eq leaf_same : val -> val -> bool.
Notation G := (H ++ N).
Notation popG := (pop (class_eq G leaf_eq leaf_same) (class_sub G)).
Definition equal (v w : val) : Prop :=
  match v, w with
  | VRef a, VRef b => is_decorated G a = true /\ is_decorated G b = true /\ popG a b (Returned true)
  | VRef _, _ | _, VRef _ => False
  | _, _ => leaf_eq v w = true /\ leaf_same v w = true
  end.
Definition REL (a b : nat) : Prop := popG a b (Returned true).
Lemma equal_same leaf v w : leaf = leaf_eq \/ leaf = leaf_same -> equal v w -> same_val G REL leaf v w.
Proof.
  intros L E. unfold same_val. destruct v, w; cbn [equal] in E; try (destruct E; fail); try (destruct E as [E1 E2]; destruct L as [-> | ->]; assumption).
  destruct E as [-> [-> E]]. cbn [andb]. right. exact E.
Qed.
Lemma pop_self a : popG a a (Returned true).
Proof. eapply po_first with (x := a) (y := a) (r1 := Returned Yes); [|apply pl_same|constructor]. unfold ordering. destruct (class_sub G a a); auto. Qed.
Lemma agrees_yes w : agrees REL w -> pfollow (class_eq G leaf_eq leaf_same) (class_sub G) w (Returned Yes).
Proof.
  intros A. induction A as [|a b f R A IH]; [constructor|]. eapply pf_ask with (x := true); [|exact IH]. destruct R as [->|R]; [apply pop_self|exact R].
Qed.
Lemma nodes_pop a b x y : arrays_fine G -> a <> b -> nth_error G a = Some x -> nth_error G b = Some y -> same_node G leaf_eq leaf_same REL x y -> popG a b (Returned true).
Proof.
  intros AF NE A B S. eapply po_first with (x := a) (y := b) (r1 := Returned Yes).
  - unfold ordering. assert (class_sub G a b = false) as -> by (unfold class_sub; rewrite A, B; destruct x, y; cbn in S; try reflexivity; destruct S). auto.
  - apply pl_run; [exact NE|]. apply agrees_yes. eapply node_agrees; eassumption.
  - constructor.
Qed.
Lemma elems_same l m : Forall2 (copy G) (map hole_as l) (map hole_as m) -> ~ In (Some VHole) l -> ~ In (Some VHole) m ->
  (forall v w, In (Some v) l -> In (Some w) m -> copy G v w -> equal v w) -> Forall2 (same_elem G leaf_eq REL) l m.
Proof.
  revert m. induction l as [|x l IH]; intros [|y m] F NL NM W; inversion F as [|? ? ? ? C F']; subst; constructor.
  - destruct x as [v|], y as [w|]; cbn [hole_as same_elem] in *; auto.
    + apply equal_same; auto. apply W; auto; left; reflexivity.
    + apply NL. left. f_equal. apply (copy_hole _ _ _ C). reflexivity.
    + apply NM. left. f_equal. apply (copy_hole _ _ _ C). reflexivity.
  - apply IH; try assumption; [intros I; apply NL; right; exact I|intros I; apply NM; right; exact I|]. intros v w I J. apply W; right; assumption.
Qed.
Lemma props_same (l m : list (list BinNums.N * val)) : map fst l = map fst m -> NoDup (map fst l) -> Forall2 equal (map snd l) (map snd m) -> same_props G leaf_same REL l m.
Proof.
  intros E ND F. split; [rewrite <- (map_length fst l), E, map_length; reflexivity|].
  intros n v I. revert m E F. induction l as [|[n' v'] l IH]; intros [|[n2 w] m] E F; try discriminate; [destruct I|]. cbn [map fst snd] in *. injection E as <- E. inversion F as [|? ? ? ? E1 F']; subst. inversion ND as [|? ? NI ND']; subst.
  cbn [dget]. destruct I as [Q|I].
  - injection Q as <- <-. rewrite (proj2 (listN_eqb_spec n' n') eq_refl). exists w. split; [reflexivity|]. apply equal_same; auto.
  - destruct (listN_eqb n n') eqn:Q; [|apply IH; assumption]. apply listN_eqb_spec in Q as ->. exfalso. apply NI. apply in_map_iff. exists (n', v). auto.
Qed.
End Equal.

Section Shown.
Variable H : heap.
Variable R : rsettings.
Variable isidentifier : list BinNums.N -> bool.
Variable whole : val -> bool.
Variable is_enum : nat -> bool.
Variable keyword : list BinNums.N -> bool.
Variable nfkc : list BinNums.N -> list BinNums.N.
Variable float_repr : BinNums.N -> list BinNums.N.
Variable leaf_eq leaf_same : val -> val -> bool.
Notation shown := (shown H R isidentifier whole is_enum keyword nfkc float_repr).
Hypothesis LEAF : forall v, shown_leaf whole v -> leaf_eq v v = true /\ leaf_same v v = true.
Variable N : heap.
Notation G := (H ++ N).
Notation equal := (equal H N leaf_eq leaf_same).
Hypothesis AF : arrays_fine H.
Hypothesis TIDY : tidy H N.
Lemma fine_all : arrays_fine G.
Proof.
  intros o x E. destruct (lt_dec o (length H)) as [L|L].
  - rewrite nth_error_app1 in E by exact L. exact (AF o x E).
  - rewrite nth_error_app2 in E by lia. destruct E as [E|E]; apply TIDY in E as [_ [OK _]]; exact (proj1 OK).
Qed.
Lemma copies_fresh o y : length H <= o -> nth_error G o = Some y -> array_ok y /\ forall c, holds y (VRef c) -> length H <= c.
Proof.
  intros L E. rewrite nth_error_app2 in E by exact L. apply TIDY in E as [_ [OK HO]]. split; [exact OK|]. intros c I. apply HO in I. lia.
Qed.
Definition fresh (w : val) : Prop := forall c, w = VRef c -> length H <= c.
Lemma shown_equal level : forall above v w, shown level above v -> copy G v w -> fresh w -> equal v w.
Proof.
  induction level as [|level IH]; intros above v w S C FW; [destruct S|].
  destruct (match v with VRef o => Some o | _ => None end) as [a|] eqn:V.
  2:{ assert (forall o, v <> VRef o) as NR by (intros o ->; discriminate). pose proof (copy_leaf _ _ _ C NR) as ->.
      assert (shown_leaf whole v) as SL by (destruct v; try exact S; discriminate). specialize (LEAF v SL). destruct v; try exact LEAF. discriminate. }
  destruct v; try discriminate. injection V as ->. cbn [SpecRepr.shown] in S. destruct S as [_ [x [A [PX S]]]].
  destruct (copy_ref _ _ _ C) as [b [x' [y [-> [A' [B [J J']]]]]]]. assert (a < length H) as LA by (apply nth_error_Some; congruence).
  rewrite nth_error_app1 in A' by exact LA. rewrite A in A'. injection A' as <-. assert (length H <= b) as LB by (apply FW; reflexivity).
  destruct (copies_fresh b y LB B) as [OKY HY]. assert (nth_error G a = Some x) as AG by (rewrite nth_error_app1 by exact LA; exact A).
  cbn [equal ReprFacts7.equal]. split; [unfold is_decorated; rewrite AG; destruct x; try discriminate; reflexivity|]. split; [unfold is_decorated; rewrite B; destruct y; try discriminate; reflexivity|].
  assert (forall v w, holds x v -> holds y w -> copy G v w -> equal v w) as PART.
  { intros v w0 Hv Hw Cv. apply (IH (a :: above)); [apply PX, Hv|exact Cv|]. intros c ->. apply HY, Hw. }
  assert (forall l m, Forall2 (copy G) l m -> (forall v, In v l -> holds x v) -> (forall w, In w m -> holds y w) -> Forall2 equal l m) as PARTS.
  { intros l m F PL PM. apply Forall2_inside with (P := holds x) (Q := holds y) (R := copy G); assumption. }
  apply (nodes_pop H N leaf_eq leaf_same a b x y fine_all); try assumption; [lia|].
  inversion C as [? NR|a0 b0 x0 y0 A0 B0 C1 C2 C3|a0 b0 x0 y0 A0 B0 C1 C2 C3|a0 b0 m m' A0 B0 C1 C2|a0 b0 m m' A0 B0 C1|a0 b0 n m s c c' A0 B0 C1]; subst; try (exfalso; eapply NR; reflexivity);
    rewrite AG in A0; injection A0 as ->; rewrite B in B0; injection B0 as ->; cbn [same_node].
  - destruct S as [_ [SN [_ [NH _]]]]. split.
    + apply elems_same; [exact C1|intros I; apply NH; left; exact I|exact (proj2 OKY)|]. intros v w Iv Iw. apply PART; left; assumption.
    + apply props_same; [exact C2|exact (proj1 SN)|]. apply PARTS; [exact C3|..]; intros v I; right; apply in_map_iff in I as [[n u] [<- I]]; exists n; exact I.
  - destruct S as [_ [SN [_ [NH _]]]]. split.
    + apply elems_same; [exact C1|intros I; apply NH; left; exact I|exact (proj2 OKY)|]. intros v w Iv Iw. apply PART; left; assumption.
    + apply props_same; [exact C2|exact (proj1 SN)|]. apply PARTS; [exact C3|..]; intros v I; right; apply in_map_iff in I as [[n u] [<- I]]; exists n; exact I.
  - apply Forall2_pairs.
    + apply Forall2_imp with (P := equal); [intros v w; apply equal_same; auto|]. apply PARTS; [exact C1|..]; intros v I; apply in_map_iff in I as [[u k] [<- I]]; exists k; right; exact I.
    + apply Forall2_imp with (P := equal); [intros v w; apply equal_same; auto|]. apply PARTS; [exact C2|..]; intros v I; apply in_map_iff in I as [[k u] [<- I]]; exists k; left; exact I.
  - apply Forall2_imp with (P := equal); [intros v w; apply equal_same; auto|]. apply PARTS; [exact C1|..]; intros v I; exact I.
  - repeat split. apply equal_same; [auto|]. apply PART; [reflexivity|reflexivity|exact C1].
Qed.
End Shown.
