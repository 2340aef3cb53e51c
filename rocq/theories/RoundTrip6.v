(** Graphs in which every object occurs in one place: nothing is written by reference. *)
From Coq Require Import List NArith ZArith Bool Lia.
From Verif Require Import Base Dict ModelTags SpecNumber ModelArray ModelValue ModelObject ModelMap ModelBuffer ModelHeap ModelDecode ModelEncode SpecEncode
  SpecGraph EncodeFacts RoundTrip.
Import ListNotations.
Open Scope nat_scope.

(** The values an object holds, each as often as it holds it ([children] lists the elements of an array twice). *)
Definition parts (x : obj) : list val :=
  match x with OArray x => elements x ++ flat (named_items x) | _ => children x end.
Definition refs_in (l : list val) : list nat := flat_map (fun v => match v with VRef o => [o] | _ => [] end) l.
(** Every object of the graph is held once: by one object, in one place, and the root by none. *)
Definition unshared (H : heap) (root : val) : Prop :=
  (forall o x p, occurs H root (VRef o) -> nth_error H o = Some x -> In (VRef p) (parts x) -> root <> VRef p) /\
  (forall o x o' x' p, occurs H root (VRef o) -> nth_error H o = Some x -> occurs H root (VRef o') -> nth_error H o' = Some x' ->
     In (VRef p) (parts x) -> In (VRef p) (parts x') -> o = o') /\
  (forall o x, occurs H root (VRef o) -> nth_error H o = Some x -> NoDup (refs_in (parts x))).

Lemma in_refs l o : In o (refs_in l) <-> In (VRef o) l.
Proof.
  unfold refs_in. rewrite in_flat_map. split.
  - intros (v & A & B). destruct v; try contradiction. destruct B as [->|[]]. auto.
  - intros A. exists (VRef o). cbn. auto.
Qed.
Lemma refs_app l m : refs_in (l ++ m) = refs_in l ++ refs_in m. Proof. apply flat_map_app. Qed.
Lemma refs_entries (l : list (option val)) : forall i,
  refs_in (flat (map (fun p => (VInt (fst p), snd p)) (entries_from i l))) = refs_in (map of_elem l).
Proof.
  induction l as [|[v|] l IH]; intros i; cbn [entries_from map flat flat_map fst snd app refs_in of_elem] in *; auto.
  unfold refs_in, flat in *. rewrite IH. auto.
Qed.
Lemma refs_own (x : jsobj val) : refs_in (flat (own_items x)) = refs_in (parts (OArray x)).
Proof. unfold own_items, parts. rewrite flat_app, !refs_app. f_equal. unfold elements. apply refs_entries. Qed.
Lemma parts_children x o : In (VRef o) (children x) -> In (VRef o) (parts x).
Proof.
  destruct x; auto. cbn [children]. intros I. apply in_app_iff in I as [I|I].
  - cbn [parts]. apply in_app_iff. auto.
  - apply in_refs. rewrite <- refs_own. apply in_refs. auto.
Qed.
Lemma children_parts x v : In v (parts x) -> In v (children x).
Proof.
  destruct x; auto. cbn [parts children]. intros I. apply in_app_iff in I as [I|I]; apply in_app_iff; auto.
  right. unfold own_items. rewrite flat_app. apply in_app_iff. auto.
Qed.

Section Tree.
Variable H : heap.
Variable cfg : ecfg.
Variable node : bool.
Variable root : val.
Notation occ := (occurs H root).
Hypothesis T : unshared H root.

(** [at_depth v n o]: [o] is reached from [v] in [n] steps. *)
Inductive at_depth (v : val) : nat -> nat -> Prop :=
| ad_here o : v = VRef o -> at_depth v 0 o
| ad_next n o x p : at_depth v n o -> nth_error H o = Some x -> In (VRef p) (parts x) -> at_depth v (S n) p.
Lemma at_occ v n o : occ v -> at_depth v n o -> occ (VRef o).
Proof. intros O A. induction A; [subst; auto|]. econstructor; eauto. apply children_parts. auto. Qed.
Lemma depth_trans v n o x p m q : at_depth v n o -> nth_error H o = Some x -> In (VRef p) (parts x) -> at_depth (VRef p) m q -> at_depth v (S n + m) q.
Proof.
  intros A E I B. induction B as [q Q|m q y q' B IH Eq Iq].
  - injection Q as <-. rewrite Nat.add_0_r. econstructor; eauto.
  - rewrite Nat.add_succ_r. econstructor; eauto.
Qed.
Lemma depth_unique n : forall m o, at_depth root n o -> at_depth root m o -> n = m.
Proof.
  destruct T as (T1 & T2 & T3).
  induction n as [|n IH]; intros m o A B.
  - inversion A as [? Ro|]. inversion B as [|m' q x ? B' E I]; auto. elim (T1 q x o); auto. eapply at_occ; eauto. constructor.
  - inversion A as [|n' q x ? A' E I]. inversion B as [? Ro|m' q' x' ? B' E' I'].
    + elim (T1 q x o); auto. eapply at_occ; eauto. constructor.
    + f_equal. assert (Q : q = q') by (eapply (T2 q x q' x' o); eauto; eapply at_occ; eauto; constructor). rewrite <- Q in *. eauto.
Qed.
Lemma depth_exists v : occ v -> forall o, v = VRef o -> exists n, at_depth root n o.
Proof.
  induction 1 as [|p x v O IH E I]; intros o ->.
  - exists 0. constructor. auto.
  - destruct (IH p eq_refl) as [n A]. exists (S n). econstructor; eauto. apply parts_children. auto.
Qed.

(** The objects at or below a value. *)
Definition below (v : val) (o : nat) : Prop := exists n, at_depth v n o.
Lemma below_self o : below (VRef o) o. Proof. exists 0. constructor. auto. Qed.
Lemma below_part o x v p : nth_error H o = Some x -> In v (parts x) -> below v p -> below (VRef o) p.
Proof.
  intros E I [n A]. assert (V : exists q, v = VRef q) by (clear -A; induction A; eauto). destruct V as [q ->].
  exists (S 0 + n). eapply depth_trans; eauto. constructor. auto.
Qed.
Lemma below_not_self o x v p : occ (VRef o) -> nth_error H o = Some x -> In v (parts x) -> below v p -> p <> o.
Proof.
  intros O E I [n A] ->. assert (V : exists q, v = VRef q) by (clear -A; induction A; eauto). destruct V as [q ->].
  destruct (depth_exists _ O o eq_refl) as [m B]. pose proof (depth_trans root m o x q n o B E I A) as C.
  pose proof (depth_unique _ _ _ B C). lia.
Qed.
(** The same object below two parts of an object: the parts are the same. *)
Lemma below_same o x a b p : occ (VRef o) -> nth_error H o = Some x -> In (VRef a) (parts x) -> In (VRef b) (parts x) ->
  below (VRef a) p -> below (VRef b) p -> a = b.
Proof.
  intros O E Ia Ib [n A] [m B]. destruct (depth_exists _ O o eq_refl) as [k K]. destruct T as (T1 & T2 & T3).
  assert (n = m). { pose proof (depth_unique _ _ _ (depth_trans root k o x a n p K E Ia A) (depth_trans root k o x b m p K E Ib B)). lia. }
  subst m. assert (Oa : occ (VRef a)) by (apply (occ_child H root o x); auto; apply children_parts; auto).
  assert (Ob : occ (VRef b)) by (apply (occ_child H root o x); auto; apply children_parts; auto).
  clear -A B Oa Ob T2. revert p A B. induction n as [|n IH]; intros p A B.
  - inversion A; inversion B; congruence.
  - inversion A as [|? q y ? A' E I]; subst. inversion B as [|? q' y' ? B' E' I']; subst.
    pose proof (T2 q y q' y' p (at_occ _ _ _ Oa A') E (at_occ _ _ _ Ob B') E' I I'). subst q'. eauto.
Qed.

(** Parts written one after the other have nothing in common. *)
Fixpoint separate (l : list val) : Prop :=
  match l with [] => True | v :: r => (forall w o, In w r -> below v o -> ~ below w o) /\ separate r end.
Lemma separate_parts o x l : occ (VRef o) -> nth_error H o = Some x -> NoDup (refs_in l) -> incl (refs_in l) (refs_in (parts x)) -> separate l.
Proof.
  intros O E. induction l as [|v l IH]; intros N I; [exact Logic.I|]. cbn [separate].
  assert (Sub : incl (refs_in l) (refs_in (v :: l))) by (destruct v; cbn; intros y Iy; cbn; auto).
  split.
  - intros w p Iw [n A] [m B].
    assert (V : exists q, v = VRef q) by (clear -A; induction A; eauto). destruct V as [a ->].
    assert (W : exists q, w = VRef q) by (clear -B; induction B; eauto). destruct W as [b ->].
    cbn in N. inversion N as [|? ? N1 N2]; subst. apply N1.
    assert (a = b).
    { eapply (below_same o x a b p); eauto; try (eexists; eauto).
      - apply in_refs, I. cbn. auto.
      - apply in_refs, I. apply Sub, in_refs. auto. }
    subst b. apply in_refs in Iw. exact Iw.
  - apply IH; [|eapply incl_tran; eauto]. destruct v; auto. cbn in N. inversion N; auto.
Qed.

Definition free (r : list nat) (v : val) : Prop := forall o, below v o -> ~ In o r.
Definition adds (l : list val) (r r' : list nat) : Prop := forall o, In o r' -> In o r \/ exists v, In v l /\ below v o.
Lemma free_snoc r v o x l : nth_error H o = Some x -> occ (VRef o) -> free r (VRef o) -> (forall q, In (VRef q) l -> In (VRef q) (parts x)) ->
  In v l -> free (r ++ [o]) v.
Proof.
  intros E O F I Iv p B Ip.
  assert (V : exists q, v = VRef q) by (destruct B as [n A]; clear -A; induction A; eauto). destruct V as [q ->].
  apply I in Iv. apply in_app_iff in Ip as [Ip|[<-|[]]].
  - apply (F p); auto. eapply below_part; eauto.
  - eapply below_not_self; eauto.
Qed.
Lemma free_step r r' v l : free r v -> adds l r r' -> (forall w o, In w l -> below v o -> ~ below w o) -> free r' v.
Proof. intros F A D o B I. apply A in I as [I|(w & Iw & Bw)]; [apply (F o); auto|]. eapply D; eauto. Qed.
Lemma adds_object r r' o x l : nth_error H o = Some x -> (forall q, In (VRef q) l -> In (VRef q) (parts x)) -> adds l (r ++ [o]) r' -> adds [VRef o] r r'.
Proof.
  intros E Il A p I. apply A in I as [I|(v & Iv & B)].
  - apply in_app_iff in I as [I|[<-|[]]]; auto. right. exists (VRef o). split; [left; auto|]. apply below_self.
  - right. exists (VRef o). split; [left; auto|].
    assert (V : exists q, v = VRef q) by (destruct B as [n Q]; clear -Q; induction Q; eauto). destruct V as [q ->].
    eapply below_part; eauto.
Qed.
Lemma adds_self r o : adds [VRef o] r (r ++ [o]).
Proof. intros p I. apply in_app_iff in I as [I|[<-|[]]]; auto. right. exists (VRef o). split; [left; auto|apply below_self]. Qed.
Lemma adds_none l r : adds l r r. Proof. intros o I. auto. Qed.
Lemma adds_app l m r r1 r2 : adds l r r1 -> adds m r1 r2 -> adds (l ++ m) r r2.
Proof.
  intros A B o I. apply B in I as [I|(v & Iv & Q)].
  - apply A in I as [I|(v & Iv & Q)]; auto. right. exists v. split; auto. apply in_app_iff. auto.
  - right. exists v. split; auto. apply in_app_iff. auto.
Qed.
Lemma separate_app l m : separate (l ++ m) -> separate l /\ separate m /\ forall v w o, In v l -> In w m -> below v o -> ~ below w o.
Proof.
  induction l as [|v l IH]; cbn [app separate]; intros Hs; [repeat split; auto; intros ? ? ? []|].
  destruct Hs as [A B]. destruct (IH B) as (C & D & E). repeat split; auto.
  - intros w o Iw. apply A. apply in_app_iff. auto.
  - intros a w o [->|Ia] Iw; [apply A; apply in_app_iff; auto|eauto].
Qed.
Lemma refs_incl l x : (forall q, In (VRef q) l -> In (VRef q) (parts x)) -> incl (refs_in l) (refs_in (parts x)).
Proof. intros I q Iq. apply in_refs. apply I. apply in_refs. auto. Qed.

Notation desc b := (describes H cfg b node eq).
Lemma unshared_describes :
  (forall open key v r w r', describes H cfg true node eq open key v r w r' -> occ v -> free r v ->
     describes H cfg false node eq open key v r w r' /\ adds [v] r r') /\
  (forall open key v r w r', writes H cfg true node eq open key v r w r' -> occ v -> free r v ->
     writes H cfg false node eq open key v r w r' /\ adds [v] r r') /\
  (forall open l r ws r', wvals_of H cfg true node eq open l r ws r' -> Forall occ l -> Forall (free r) l -> separate l ->
     wvals_of H cfg false node eq open l r ws r' /\ adds l r r') /\
  (forall open key l r ps r', wpairs_of H cfg true node eq open key l r ps r' -> Forall occ (flat l) -> Forall (free r) (flat l) -> separate (flat l) ->
     wpairs_of H cfg false node eq open key l r ps r' /\ adds (flat l) r r').
Proof.
  assert (FF : forall o r, fresh false o r) by (intros o r Q; discriminate).
  assert (ND : forall o x, occ (VRef o) -> nth_error H o = Some x -> NoDup (refs_in (parts x))) by (destruct T as (_ & _ & T3); auto).
  assert (List : forall o x l r, nth_error H o = Some x -> occ (VRef o) -> free r (VRef o) -> refs_in l = refs_in (parts x) -> incl l (children x) ->
    Forall occ l /\ Forall (free (r ++ [o])) l /\ separate l /\ (forall q, In (VRef q) l -> In (VRef q) (parts x))).
  { intros o x l r E O F Rl Il.
    assert (Q : forall q, In (VRef q) l -> In (VRef q) (parts x)) by (intros q Iq; apply in_refs; rewrite <- Rl; apply in_refs; auto).
    split; [|split; [|split]]; auto.
    - apply Forall_forall. intros v Iv. econstructor; eauto.
    - apply Forall_forall. intros v Iv. eapply free_snoc; eauto.
    - eapply separate_parts; eauto; rewrite Rl; [auto|apply incl_refl]. eauto. }
  apply describes_mutind.
  - intros open key v v0 r w r' <- _ IH O F. destruct (IH O F) as [A B]. split; auto. econstructor; eauto.
  - intros open key o r sid _ E _ O F. elim (F o); [apply below_self|]. eapply nth_error_In; eauto.
  - intros. split; [constructor|apply adds_none].
  - intros. split; [constructor|apply adds_none].
  - intros. split; [constructor|apply adds_none].
  - intros. split; [constructor|apply adds_none].
  - intros. split; [constructor; auto|apply adds_none].
  - intros. split; [constructor|apply adds_none].
  - intros. split; [constructor|apply adds_none].
  - intros. split; [eapply wr_prim; eauto|apply adds_self].
  - intros. split; [eapply wr_regexp; eauto|apply adds_none].
  - intros. split; [eapply wr_error; eauto|apply adds_none].
  - intros open key o n m s c r w r' E N _ _ IH O F.
    destruct (List o _ [c] r E O F) as (A & B & _ & D); [cbn [parts children]; destruct c; auto; congruence|cbn [children]; destruct c; try apply incl_refl; congruence|].
    inversion A; inversion B; subst. destruct IH as [IH1 IH2]; auto. split; [eapply wr_errorc; eauto|]. eapply adds_object; eauto.
  - intros. split; [eapply wr_date; eauto|apply adds_self].
  - intros. split; [eapply wr_sharedref; eauto|apply adds_self].
  - intros open key o x r ps r' E _ _ IH O F.
    destruct (List o _ (flat (own_items x)) r E O F) as (A & B & C & D); auto; [apply incl_refl|].
    destruct IH as [IH1 IH2]; auto. split; [eapply wr_object; eauto|]. eapply adds_object; eauto.
  - intros open key o x r vs r1 ps r' E _ _ IH1 _ IH2 O F.
    destruct (List o _ (parts (OArray x)) r E O F) as (A & B & C & D); auto; [intros v; apply children_parts|].
    cbn [parts] in A, B, C. apply Forall_app in A as [A1 A2]. apply Forall_app in B as [B1 B2].
    apply separate_app in C as (C1 & C2 & C3). destruct IH1 as [G1 G2]; auto.
    destruct IH2 as [G3 G4]; auto.
    { rewrite Forall_forall in *. intros v Iv. eapply free_step; eauto. intros w p Iw Bv Bw. eapply C3; eauto. }
    split; [eapply wr_dense; eauto|]. eapply adds_object; eauto. cbn [parts]. eapply adds_app; eauto.
  - intros open key o x r ps r' E _ _ IH O F.
    destruct (List o _ (flat (own_items x)) r E O F) as (A & B & C & D); auto; [apply refs_own|apply incl_appr, incl_refl|].
    destruct IH as [IH1 IH2]; auto. split; [eapply wr_sparse; eauto|]. eapply adds_object; eauto.
  - intros open key o m r ps r' E _ _ IH O F.
    destruct (List o _ (flat (map snd m)) r E O F) as (A & B & C & D); auto; [apply incl_refl|].
    destruct IH as [IH1 IH2]; auto. split; [eapply wr_map; eauto|]. eapply adds_object; eauto.
  - intros open key o m r ps r' E _ _ IH O F.
    destruct (List o _ (flat m) r E O F) as (A & B & C & D); auto; [apply incl_refl|].
    destruct IH as [IH1 IH2]; auto. split; [eapply wr_dict; eauto|]. eapply adds_object; eauto.
  - intros open key o m r vs r' E _ _ IH O F.
    destruct (List o _ (map snd m) r E O F) as (A & B & C & D); auto; [apply incl_refl|].
    destruct IH as [IH1 IH2]; auto. split; [eapply wr_set; eauto|]. eapply adds_object; eauto.
  - intros open key o m r vs r' E _ _ IH O F.
    destruct (List o _ m r E O F) as (A & B & C & D); auto; [apply incl_refl|].
    destruct IH as [IH1 IH2]; auto. split; [eapply wr_pyset; eauto|]. eapply adds_object; eauto.
  - intros open key o t m r vs r' E _ _ IH O F.
    destruct (List o _ m r E O F) as (A & B & C & D); auto; [apply incl_refl|].
    destruct IH as [IH1 IH2]; auto. split; [eapply wr_seq; eauto|]. eapply adds_object; eauto.
  - intros. split; [eapply wr_plain; eauto|apply adds_self].
  - intros. split; [eapply wr_resizable; eauto|apply adds_self].
  - intros. split; [eapply wr_shared; eauto|apply adds_self].
  - intros. split; [eapply wr_transfer; eauto|apply adds_self].
  - intros open key o o' d r E _ Eo O F. rewrite (Eo eq_refl). split; [eapply wr_bytes; eauto; discriminate|apply adds_self].
  - intros. split; [eapply wr_bytearray; eauto|apply adds_self].
  - intros open key o b v r w r1 w' E _ Nd F16 _ IH At O F.
    destruct IH as [IH1 IH2].
    + econstructor; eauto. left. auto.
    + intros p Bp. apply F. eapply below_part; eauto. left. auto.
    + split; [eapply wr_view; eauto|]. intros p Ip. apply in_app_iff in Ip as [Ip|[<-|[]]].
      * apply IH2 in Ip as [Ip|(u & [<-|[]] & Bu)]; auto. right. exists (VRef o). split; [left; auto|]. eapply below_part; eauto. left. auto.
      * right. exists (VRef o). split; [left; auto|apply below_self].
  - intros. split; [eapply wr_node; eauto|apply adds_none].
  - intros. split; [constructor|apply adds_none].
  - intros open v l r w r1 ws r' _ IH1 _ IH2 Fo Ff S1. inversion Fo; inversion Ff; subst. destruct S1 as [S1 S2].
    destruct IH1 as [A1 A2]; auto. destruct IH2 as [B1 B2]; auto.
    { rewrite Forall_forall in *. intros u Iu. eapply free_step; eauto. intros w0 p [<-|[]] Bu Bv. eapply S1; eauto. }
    split; [econstructor; eauto|]. apply (adds_app [v] l r r1 r'); auto.
  - intros. split; [constructor|apply adds_none].
  - intros open key k v l r w1 r1 w2 r2 ws r' _ IH1 _ IH2 _ IH3 Fo Ff S1.
    change (flat ((k, v) :: l)) with (k :: v :: flat l) in *.
    inversion Fo as [|? ? Ok Fo']; inversion Ff as [|? ? Fk Ff']; inversion Fo' as [|? ? Ov Fo'']; inversion Ff' as [|? ? Fv Ff'']; subst.
    destruct S1 as [S1 [S2 S3]].
    destruct IH1 as [A1 A2]; auto. destruct IH2 as [B1 B2]; auto.
    { apply (free_step r r1 v [k]); auto. intros w p [<-|[]] Bv Bk. apply (S1 v p); auto. left. auto. }
    assert (AB : adds [k; v] r r2) by (apply (adds_app [k] [v] r r1 r2); auto).
    destruct IH3 as [C1 C2]; auto.
    { rewrite Forall_forall in *. intros u Iu. apply (free_step r r2 u [k; v]); auto. intros w p [<-|[<-|[]]] Bu Bw; [apply (S1 u p); auto; right; auto|apply (S2 u p); auto]. }
    split; [econstructor; eauto|]. apply (adds_app [k; v] (flat l) r r2 r'); auto.
Qed.
End Tree.
