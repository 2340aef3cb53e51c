(** How dumps fails: every exception is due to a value that cannot be written or to an error
    reachable from its own cause; the recursion depth is bounded. *)
From Coq Require Import List NArith ZArith Bool Lia.
From Coq Require Import ZifyBool ZifyN ZifyNat.
From Verif Require Import Base Dict ModelTags ModelPrim SpecPrim PrimFacts PrimFacts2 PrimFacts3 SpecNumber ModelLog LogFacts ModelArray ArrayFacts3 ModelValue ModelObject
  ModelMap ModelBuffer BufferFacts ModelHeap ModelDecode SpecWire ModelEncode SpecEncode SpecFail HashFacts EncodeFacts EncodeFacts2 EncodeFacts3.
Import ListNotations.
Open Scope N_scope.

Lemma w_seq_Err a b st e : w_seq a b st = Err e -> a st = Err e \/ exists x s1, a st = Ok (x, s1) /\ b s1 = Err e.
Proof.
  unfold w_seq. intros E. apply bind_Err in E as [E|[[x s1] [E1 E]]]; auto. right. exists x, s1. split; auto.
  apply bind_Err in E as [E|[[y s2] [E2 E]]]; auto. discriminate.
Qed.
Lemma w_tag_None t st : es_allowed st = None -> w_tag t st = Ok ([tag_byte t], st).
Proof. unfold w_tag. intros ->. reflexivity. Qed.
Lemma utf8_payload_err s e : utf8_payload s = Err e -> e = EUnicode /\ surrogates s.
Proof. unfold utf8_payload. intros E. apply bind_Err in E as [E|[x [_ E]]]; [|discriminate]. apply utf8_encode_err; auto. Qed.
Lemma bigint_bytes_err z e : bigint_bytes z = Err e -> e = EValue /\ big z.
Proof.
  intros E. split; [apply bigint_rejects in E; auto|]. unfold big. apply N.le_ngt. intros L. apply bigint_accepts in L as [bs L]. congruence.
Qed.
Lemma uint32_bytes_err z e : uint32_bytes z = Err e -> e = EValue /\ (z < 0 \/ 2 ^ 32 <= z)%Z.
Proof.
  unfold uint32_bytes, in_uint32. destruct ((0 <=? z) && (z <? 4294967296))%Z eqn:R.
  - unfold write_varint. destruct (z <? 0)%Z eqn:L; [lia|discriminate].
  - intros [= <-]. split; auto. lia.
Qed.

(** * The recursion budget *)
Definition le_w (a b : W) : Prop := forall st, a st = Err EOutOfFuel \/ a st = b st.
Lemma le_refl a : le_w a a.
Proof. right; auto. Qed.
Lemma le_seq a a' b b' : le_w a a' -> le_w b b' -> le_w (w_seq a b) (w_seq a' b').
Proof.
  intros A B st. unfold w_seq. destruct (A st) as [->| ->]; [left; auto|]. destruct (a' st) as [[x s1]|e]; [|right; auto].
  cbn [bind]. destruct (B s1) as [->| ->]; [left; auto|right; auto].
Qed.
Lemma le_constrained s a a' : le_w a a' -> le_w (constrained s a) (constrained s a').
Proof. intros A st. unfold constrained. destruct (A (set_allowed st (Some s))) as [->| ->]; [left|right]; auto. Qed.
Lemma le_acyclic o a a' : le_w a a' -> le_w (w_acyclic o a) (w_acyclic o a').
Proof.
  intros A st. unfold w_acyclic. destruct (log_open_acyclic pyid (es_log st) o) as [sid l].
  destruct (A (set_log st l)) as [->| ->]; [left|right]; auto.
Qed.
Lemma le_values f g l : (forall v, le_w (f v) (g v)) -> le_w (w_values f l) (w_values g l).
Proof. intros A. induction l; cbn [w_values]; auto using le_refl, le_seq. Qed.
Lemma le_items f g f' g' l : (forall v, le_w (f v) (f' v)) -> (forall v, le_w (g v) (g' v)) -> le_w (w_items f g l) (w_items f' g' l).
Proof. intros A B. induction l as [|[k v] l IH]; cbn [w_items]; auto using le_refl, le_seq. Qed.
Lemma le_with {A} (r : result A) f g : (forall a, le_w (f a) (g a)) -> le_w (w_with r f) (w_with r g).
Proof. destruct r; cbn [w_with]; auto using le_refl. Qed.
#[local] Hint Resolve le_refl le_seq le_constrained le_acyclic le_values le_items le_with : le_w.

Section Mono.
Variable H : heap.
Variable cfg : ecfg.
Variables e1 e2 : val -> W.
Hypothesis EL : forall v, le_w (e1 v) (e2 v).
Lemma le_error o n m s c : le_w (write_error cfg e1 o n m s c) (write_error cfg e2 o n m s c).
Proof. unfold write_error. repeat apply le_seq; try apply le_refl. destruct c; try apply le_refl; apply le_seq; try apply le_refl; destruct (f_circular _); auto with le_w. Qed.
Lemma le_array o x : le_w (serialize_js_array e1 o x) (serialize_js_array e2 o x).
Proof.
  unfold serialize_js_array. destruct (sparse_is_smaller _); apply le_with; intros a.
  - unfold write_sparse. destruct (_ || _)%bool; [apply le_refl|]. unfold write_properties. auto 20 with le_w.
  - unfold write_dense. auto 20 with le_w.
Qed.
Lemma le_tagwriter v n1 n2 : (forall v, le_w (n1 v) (n2 v)) -> le_w (step_tagwriter H cfg e1 v n1) (step_tagwriter H cfg e2 v n2).
Proof.
  intros N. destruct v as [| | |b|z|b|s|o]; cbn [step_tagwriter]; try apply le_refl. destruct (nth_error H o) as [x|]; [|apply N].
  destruct x; try apply le_refl; auto.
  - apply le_with. intros. unfold write_jsmap. auto 20 with le_w.
  - unfold write_jsset. auto 20 with le_w.
  - apply le_with. intros. unfold write_js_object, write_properties. auto 20 with le_w.
  - apply le_array.
  - apply le_error.
  - destruct (_ && _)%bool; auto. apply le_seq; auto using le_refl.
  - unfold write_jsmap. auto 20 with le_w.
  - unfold write_jsset. auto 20 with le_w.
  - unfold write_dense. auto 20 with le_w.
Qed.
Lemma le_node v n1 n2 : (forall v, le_w (n1 v) (n2 v)) -> le_w (step_node H e1 v n1) (step_node H e2 v n2).
Proof.
  intros N. destruct v as [| | |b|z|b|s|o]; cbn [step_node]; auto. destruct (nth_error H o) as [x|]; auto. destruct x; auto.
  destruct (node_code _); auto using le_refl.
Qed.
Lemma le_references v n1 n2 : (forall v, le_w (n1 v) (n2 v)) -> le_w (step_references H e1 v n1) (step_references H e2 v n2).
Proof.
  intros N st. unfold step_references. destruct (deduplicate H v st) as [v0 s0]. destruct v0; try apply N.
  destruct (log_contains _ _ _); [right; auto|apply N].
Qed.
Lemma le_chain refs node v : le_w (chain e1 (steps_of H cfg refs node) v) (chain e2 (steps_of H cfg refs node) v).
Proof.
  unfold steps_of.
  assert (A : forall v, le_w (chain e1 [step_tagwriter H cfg] v) (chain e2 [step_tagwriter H cfg] v)) by (intros; apply le_tagwriter; intros; apply le_refl).
  assert (B : forall v, le_w (chain e1 ((if node then [step_node H] else []) ++ [step_tagwriter H cfg]) v)
                             (chain e2 ((if node then [step_node H] else []) ++ [step_tagwriter H cfg]) v)).
  { intros. destruct node; [apply le_node; exact A|apply A]. }
  destruct refs; [apply le_references; exact B|apply B].
Qed.
End Mono.
Lemma encode_mono H cfg refs node d : forall d' v, (d <= d')%nat ->
  le_w (encode d (steps_of H cfg refs node) v) (encode d' (steps_of H cfg refs node) v).
Proof.
  induction d as [|d IH]; intros d' v L; [left; auto|]. destruct d' as [|d']; [lia|]. cbn [encode].
  apply le_chain. intros. apply IH. lia.
Qed.

(** * Unrecorded objects *)
Definition unrec (H : heap) (r : list nat) : nat := length (filter (fun o => negb (existsb (Nat.eqb o) r)) (seq 0 (length H))).
Lemma existsb_in o r : existsb (Nat.eqb o) r = true <-> In o r.
Proof. rewrite existsb_exists. split; [intros (x & I & E); apply Nat.eqb_eq in E; subst; auto|exists o; split; auto; apply Nat.eqb_refl]. Qed.
Lemma filter_le {A} (f g : A -> bool) l : (forall x, In x l -> f x = true -> g x = true) -> (length (filter f l) <= length (filter g l))%nat.
Proof.
  induction l as [|x l IH]; intros Hf; cbn [filter]; auto. assert (length (filter f l) <= length (filter g l))%nat by (apply IH; intros; apply Hf; auto; right; auto).
  pose proof (Hf x (or_introl eq_refl)). destruct (f x); destruct (g x); cbn [length]; lia.
Qed.
Lemma filter_lt {A} (f g : A -> bool) l y : (forall x, In x l -> f x = true -> g x = true) -> In y l -> f y = false -> g y = true ->
  (length (filter f l) < length (filter g l))%nat.
Proof.
  induction l as [|x l IH]; intros Hf I Fy Gy; [contradiction|]. cbn [filter].
  assert (Hl : forall x, In x l -> f x = true -> g x = true) by (intros; apply Hf; auto; right; auto).
  destruct I as [->|I].
  - rewrite Fy, Gy. cbn [length]. pose proof (filter_le f g l Hl). lia.
  - specialize (IH Hl I Fy Gy). pose proof (Hf x (or_introl eq_refl)). destruct (f x); destruct (g x); cbn [length]; lia.
Qed.
Lemma unrec_grow H r d : (unrec H (r ++ d) <= unrec H r)%nat.
Proof.
  apply filter_le. intros x _. rewrite !negb_true_iff, existsb_app, orb_false_iff. tauto.
Qed.
Lemma unrec_add H r o : (o < length H)%nat -> ~ In o r -> (unrec H (r ++ [o]) < unrec H r)%nat.
Proof.
  intros L N. apply filter_lt with (y := o).
  - intros x _. rewrite !negb_true_iff, existsb_app, orb_false_iff. tauto.
  - apply in_seq. lia.
  - rewrite negb_false_iff, existsb_app. cbn. rewrite Nat.eqb_refl. apply orb_true_r.
  - rewrite negb_true_iff. apply not_true_is_false. rewrite existsb_in. auto.
Qed.
(** * Blame *)
Section Blame.
Variable H : heap.
Variable cfg : ecfg.
Variables refs node : bool.
Variable root : val.
Hypothesis WF : wf_graph H cfg root.
(* without references the graph is acyclic *)
Variable rank : val -> nat.
Hypothesis RK : refs = false -> forall o x c, occurs H root (VRef o) -> nth_error H o = Some x -> In c (children x) ->
  (rank c < rank (VRef o))%nat.
Notation feat := (e_features cfg).
Notation rep := (rep_of H refs root).
Notation occ := (occurs H root).
Notation desc := (describes H cfg refs node rep).
Notation st_ok := (EncodeFacts.st_ok H refs root).
Notation fresh := (fresh refs).
Notation steps := (steps_of H cfg refs node).

Definition blame (r open : list nat) (e : exn) : Prop :=
  (exists u, occ u /\ fails H cfg u e) \/
  (exists sid o, refs = true /\ e = EForwardRef sid /\ nth_error r sid = Some o /\ In o open /\ cyclic_error H o) \/
  (refs = true /\ e = EIllegalCyclic /\ f_circular feat = false /\ exists o, occ (VRef o) /\ cyclic_error H o).

(** Errors are never part of hashable values. *)
Definition quiet (v : val) : Prop :=
  (exists n, hash H n v <> None) \/ (exists o x, v = VRef o /\ nth_error H o = Some x /\ buffer_like x).
Definition opened (open : list nat) : Prop :=
  forall o, In o open -> exists n m s c, nth_error H o = Some (OError n m s c) /\ c <> VNone.
Definition reach (open : list nat) (v : val) : Prop :=
  quiet v \/ forall o, In o open -> exists n m s c, nth_error H o = Some (OError n m s c) /\ c <> VNone /\ occurs H c v.

Lemma occurs_trans a b c : occurs H a b -> occurs H b c -> occurs H a c.
Proof. intros A. induction 1; auto. econstructor; eauto. Qed.
Lemma quiet_child o x c : quiet (VRef o) -> nth_error H o = Some x -> occ (VRef o) -> In c (children x) -> quiet c.
Proof.
  intros Q Hx O I. destruct Q as [[n Q]|(o' & y & [= <-] & Hy & B)].
  - destruct n; [elim Q; reflexivity|]. rewrite hash_S, Hx in Q. destruct x; cbn [children] in I; try contradiction; try (elim Q; reflexivity).
    + (* view *) destruct I as [<-|[]]. destruct (wf_occ H cfg root WF _ _ O Hx) as (_ & y & Hy & B). right. eauto.
    + (* tuple *) destruct tuple; [|elim Q; reflexivity]. left. exists n. clear Hx O. induction l as [|a l IH]; [contradiction|].
      cbn [fold_right] in Q. destruct (hash H n a) eqn:Ea; [|elim Q; reflexivity]. destruct I as [<-|I]; [congruence|].
      apply IH; auto. intros C. rewrite C in Q. elim Q; reflexivity.
  - rewrite Hx in Hy. injection Hy as <-. destruct x; cbn in B, I; contradiction.
Qed.
Lemma reach_child open o x c : reach open (VRef o) -> nth_error H o = Some x -> occ (VRef o) -> In c (children x) -> reach open c.
Proof.
  intros [Q|R] Hx O I; [left; eapply quiet_child; eauto|]. right. intros p Ip. destruct (R p Ip) as (n & m & s & c' & Hp & Nc & Oc).
  exists n, m, s, c'. split; auto. split; auto. econstructor; eauto.
Qed.
Lemma quiet_no_error o n m s c : quiet (VRef o) -> nth_error H o = Some (OError n m s c) -> False.
Proof.
  intros [[k Q]|(o' & y & [= <-] & Hy & B)] Ho.
  - destruct k; [elim Q; reflexivity|]. rewrite hash_S, Ho in Q. elim Q; reflexivity.
  - rewrite Ho in Hy. injection Hy as <-. contradiction.
Qed.
Lemma reach_rep open v v0 : reach open v -> rep v v0 -> reach open v0.
Proof.
  unfold rep_of. intros R E. destruct refs; [|subst; auto]. destruct E as [<-|(A & B & _)]; auto.
  left. left. unfold hash_key in A, B. destruct (hash H (S (length H)) v); [|congruence]. exists (S (length H)).
  destruct (hash H (S (length H)) v0); congruence.
Qed.

Lemma blame_grow r d open e st : st_ok st r open -> (refs = true -> NoDup (r ++ d)) -> blame (r ++ d) open e -> blame r open e.
Proof.
  intros (L & _) N [B|[(sid & o & R & E & Hn & I & C)|B]]; [left; auto| |right; right; auto].
  right. left. exists sid, o. split; auto. split; auto. split; auto. destruct (L R) as (_ & _ & Io & _).
  apply Io in I as I'. apply In_nth_error in I' as [j Hj].
  assert (j < length r)%nat by (apply nth_error_Some; congruence).
  assert (sid = j).
  { specialize (N R). rewrite NoDup_nth_error in N. apply N.
    - apply nth_error_Some. congruence.
    - rewrite Hn, nth_error_app1; auto. }
  subst. auto.
Qed.

(** * Depth *)
Definition leafy (v : val) : Prop :=
  match v with VRef o => exists x, nth_error H o = Some x /\ buffer_like x | _ => True end.
Definition enough (d : nat) (v : val) (r : list nat) : Prop :=
  if refs then (unrec H r + 2 <= d \/ leafy v /\ 1 <= d)%nat else (rank v < d)%nat.
Lemma enough_grow d v r x : enough d v r -> enough d v (r ++ x).
Proof. unfold enough. destruct refs; auto. intros [A|A]; auto. left. pose proof (unrec_grow H r x). lia. Qed.
Lemma enough_pos v r : ~ enough 0 v r.
Proof. unfold enough. destruct refs; lia. Qed.
Lemma enough_rep d v v0 r : enough d v r -> rep v v0 -> enough d v0 r.
Proof.
  unfold enough. intros E R. assert (Hr : refs = true \/ refs = false) by (destruct refs; auto).
  destruct Hr as [Hr|Hr]; unfold rep_of in R; rewrite Hr in *; [|subst; auto].
  destruct E as [E|[L P]]; auto. right. split; auto. destruct v as [| | |b|z|b|s|o].
  8: { destruct L as (x & Hx & B). destruct (rep_buffer H refs root o v0 x) as (b0 & y0 & -> & ? & ?); auto; [unfold rep_of; rewrite Hr; auto|]. exists y0. auto. }
  all: destruct R as [<-|(A & B & _)]; auto; pose proof (hash_key_eq H _ _ A B) as X; cbn in X; try (subst; exact I).
  destruct X as (? & -> & _). exact I.
Qed.
Lemma enough_child d o x c r : enough (S d) (VRef o) r -> nth_error H o = Some x -> occ (VRef o) -> fresh o r -> ~ buffer_like x ->
  In c (children x) -> enough d c (r ++ [o]).
Proof.
  unfold enough, SpecEncode.fresh. intros E Hx O F NB I. assert (Hr : refs = true \/ refs = false) by (destruct refs; auto).
  destruct Hr as [Hr|Hr]; rewrite Hr in *.
  - destruct E as [E|[(y & Hy & B) _]]; [|congruence]. left.
    assert (o < length H)%nat by (apply nth_error_Some; congruence). pose proof (unrec_add H r o H0 (F eq_refl)). lia.
  - pose proof (RK eq_refl o x c O Hx I). lia.
Qed.
Lemma enough_view d o b w r : enough (S d) (VRef o) r -> nth_error H o = Some (OView b w) -> occ (VRef o) -> enough d (VRef b) r.
Proof.
  unfold enough. intros E Hx O. assert (Hr : refs = true \/ refs = false) by (destruct refs; auto).
  destruct Hr as [Hr|Hr]; rewrite Hr in *.
  - destruct (wf_occ H cfg root WF _ _ O Hx) as (_ & y & Hy & B).
    destruct E as [E|[(y' & Hy' & B') _]]; [|rewrite Hx in Hy'; injection Hy' as <-; contradiction].
    right. split; [exists y; auto|lia].
  - pose proof (RK eq_refl o _ (VRef b) O Hx (or_introl eq_refl)). lia.
Qed.

(** * Loops *)
Definition small_key (v : val) : Prop := match v with VStr _ => True | VInt z => (0 <= z < 2 ^ 32)%Z | _ => False end.
Lemma small_simple k : small_key k -> simple_key k.
Proof. destruct k; cbn; auto. Qed.
Definition blames (d : nat) (enc : val -> W) : Prop :=
  (forall v st r open e, occ v -> st_ok st r open -> opened open -> reach open v -> enough d v r -> enc v st = Err e -> blame r open e) /\
  (forall k st r open e, small_key k -> occ k -> st_ok st r open -> enough d k r ->
     enc k (set_allowed st (Some KeyTags)) = Err e -> blame r open e).
Lemma st_NoDup st r open : st_ok st r open -> refs = true -> NoDup r.
Proof. intros (L & _) R. apply (L R). Qed.
Lemma st_allowed st r open : st_ok st r open -> es_allowed st = None.
Proof. intros (_ & _ & A). exact A. Qed.

Section Loops.
Variable d : nat.
Variable enc : val -> W.
Hypothesis EO : enc_ok H cfg refs node root enc.
Hypothesis BO : blames d enc.
Definition fine (open r : list nat) (v : val) : Prop := occ v /\ reach open v /\ enough d v r.
Lemma fine_grow open r x v : fine open r v -> fine open (r ++ x) v.
Proof. intros (A & B & C). split; auto. split; auto. apply enough_grow; auto. Qed.
Lemma fine_grows open r x l : Forall (fine open r) l -> Forall (fine open (r ++ x)) l.
Proof. apply Forall_impl. intros. apply fine_grow; auto. Qed.
Lemma desc_grow open key v r w r' : desc open key v r w r' -> exists x, r' = r ++ x.
Proof. apply (proj1 (describes_ext H cfg refs node root)). Qed.

Lemma values_err l : forall st r open e, Forall (fine open r) l -> opened open -> st_ok st r open ->
  w_values enc l st = Err e -> blame r open e.
Proof.
  induction l as [|v l IH]; intros st r open e F Op So E; cbn [w_values] in E; [discriminate|].
  apply Forall_cons_iff in F as [(Ov & Rv & Nv) F]. apply w_seq_Err in E as [E|(x & s1 & E1 & E)]; [eapply (proj1 BO); eauto|].
  destruct (proj1 EO _ _ _ _ _ _ Ov So E1) as (w & r1 & D & _ & So1). apply desc_grow in D as [g ->].
  eapply blame_grow; [exact So|intros; eapply st_NoDup; eauto|]. eapply IH; eauto using fine_grows.
Qed.
Lemma items_err l : forall st r open e, Forall (fine open r) (flat l) -> opened open -> st_ok st r open ->
  w_items enc enc l st = Err e -> blame r open e.
Proof.
  induction l as [|[k v] l IH]; intros st r open e F Op So E; cbn [w_items] in E; [discriminate|].
  cbn [flat flat_map fst snd app] in F. apply Forall_cons_iff in F as [(Ok_ & Rk & Nk) F]. apply Forall_cons_iff in F as [(Ov & Rv & Nv) F].
  apply w_seq_Err in E as [E|(x & s1 & E1 & E)]; [apply (proj1 BO k st); auto|].
  destruct (proj1 EO _ _ _ _ _ _ Ok_ So E1) as (w & r1 & D & _ & So1). apply desc_grow in D as [g ->].
  eapply blame_grow; [exact So|intros; eapply st_NoDup; eauto|].
  apply w_seq_Err in E as [E|(x2 & s2 & E2 & E)]; [apply (proj1 BO v s1); auto; apply enough_grow; auto|].
  destruct (proj1 EO _ _ _ _ _ _ Ov So1 E2) as (w2 & r2 & D & _ & So2). apply desc_grow in D as [g2 ->].
  eapply blame_grow; [exact So1|intros; eapply st_NoDup; eauto|].
  eapply IH; eauto. apply fine_grows, fine_grows. auto.
Qed.
Lemma props_err l : forall st r open e, Forall (fun p => small_key (fst p)) l -> Forall (fine open r) (flat l) -> opened open -> st_ok st r open ->
  w_items (fun k => constrained KeyTags (enc k)) enc l st = Err e -> blame r open e.
Proof.
  induction l as [|[k v] l IH]; intros st r open e Fk F Op So E; cbn [w_items] in E; [discriminate|].
  cbn [flat flat_map fst snd app] in F. apply Forall_cons_iff in F as [(Ok_ & Rk & Nk) F]. apply Forall_cons_iff in F as [(Ov & Rv & Nv) F].
  apply Forall_cons_iff in Fk as [Kk Kl]. cbn [fst] in Kk.
  apply w_seq_Err in E as [E|(x & s1 & E1 & E)].
  - unfold constrained in E. apply bind_Err in E as [E|[[x s1] [_ E]]]; [|discriminate]. apply (proj2 BO k st); auto.
  - unfold constrained in E1. apply bind_Ok in E1 as [[x0 s0] [E1 E1']]. injection E1' as <- <-.
    destruct (proj2 EO _ _ _ _ _ _ (small_simple _ Kk) Ok_ So E1) as (w & D & _ & _ & So1).
    apply w_seq_Err in E as [E|(x2 & s2 & E2 & E)]; [apply (proj1 BO v (set_allowed s0 None)); auto|].
    destruct (proj1 EO _ _ _ _ _ _ Ov So1 E2) as (w2 & r2 & D2 & _ & So2). apply desc_grow in D2 as [g2 ->].
    eapply blame_grow; [exact So|intros; eapply st_NoDup; eauto|].
    eapply IH; eauto using fine_grows.
Qed.
Lemma own_small (x : jsobj val) : wf_jsobj x -> Forall (fun p => small_key (fst p)) (own_items x).
Proof.
  intros (_ & _ & _ & _ & _ & L). unfold own_items, named_items. apply Forall_app. split; apply Forall_forall; intros p Hp;
    apply in_map_iff in Hp as (q & <- & Hq); [|exact I]. destruct q as [i y]. cbn [fst small_key].
  apply entries_from_in in Hq as [A B]. assert (Z.to_nat (i - 0) < length (aabs (jo_arr x)))%nat by (apply nth_error_Some; congruence).
  unfold lenN in L. change (2 ^ 32) with 4294967296 in L. change (2 ^ 32)%Z with 4294967296%Z. lia.
Qed.
Lemma named_small (x : jsobj val) : wf_jsobj x -> Forall (fun p => small_key (fst p)) (named_items x).
Proof. intros Wx. pose proof (own_small x Wx) as O. unfold own_items in O. apply Forall_app in O. apply O. Qed.

Lemma fails_no_forward u sid : ~ fails H cfg u (EForwardRef sid).
Proof. intros F. inversion F. match goal with X : date_err ?e = _ |- _ => destruct e; discriminate X end. Qed.

(** The memory a view shows is not longer than its buffer. *)
Lemma view_size o b w : occ (VRef o) -> nth_error H o = Some (OView b w) ->
  fails H cfg (VRef b) EValue \/
  ((0 <= view_byte_offset (backing_of H b) w < 2 ^ 32)%Z /\ (0 <= view_byte_length (backing_of H b) w < 2 ^ 32)%Z).
Proof.
  intros O Hx. destruct (wf_occ H cfg root WF _ _ O Hx) as [Vo (y & Hb & B)].
  assert (Ob : occ (VRef b)) by (apply (occ_child_obj H root o _ _ O Hx); left; auto).
  pose proof (wf_occ H cfg root WF _ _ Ob Hb) as Wy.
  assert (S1 : fails H cfg (VRef b) EValue \/ (zlen (data_of (backing_of H b)) < 2 ^ 32)%Z).
  { unfold backing_of. rewrite Hb.
    assert (Ln : forall dd, long dd \/ (zlen dd < 2 ^ 32)%Z).
    { intros dd. unfold long, zlen, lenN. change (2 ^ 32)%Z with 4294967296%Z. change (2 ^ 32) with 4294967296. lia. }
    destruct y; try contradiction; cbn [data_of bk_data] in *; try (right; reflexivity).
    - unfold data_of, bk_data. rewrite jsbuf_view_all by apply Wy. destruct (Ln (jb_data b0)); auto. left. eapply fl_buffer; eauto.
    - destruct (Ln d0); auto. left. eapply fl_bytes; eauto.
    - destruct (Ln d0); auto. left. eapply fl_bytearray; eauto. }
  destruct S1 as [S1|S1]; auto. right. clear -Vo S1.
  unfold view_byte_offset, view_byte_length, view_in_range. destruct (view_memory (backing_of H b) w) as [i mem] eqn:Em. cbn [fst snd].
  destruct (view_memory_spec _ _ _ _ Vo Em) as (A & B & C & D). destruct i.
  - destruct (C eq_refl) as (pre & post & C1 & C2). rewrite C1 in S1. unfold zlen in *. rewrite !app_length in S1. destruct Vo as [Vo _]. pose proof (isize_pos (vw_tag w)).
    assert (0 <= vw_offset w * isize (vw_tag w))%Z by nia. lia.
  - rewrite (B eq_refl). unfold zlen. cbn [length]. lia.
Qed.

Lemma blame_fails r open u e : occ u -> fails H cfg u e -> blame r open e.
Proof. left. eauto. Qed.
Lemma utf8_err s st e : es_allowed st = None -> write_utf8 s st = Err e -> e = EUnicode /\ surrogates s.
Proof.
  intros A E. unfold write_utf8 in E. apply bind_Err in E as [E|[p [_ E]]]; [apply utf8_payload_err; auto|].
  apply w_seq_Err in E as [E|(? & ? & _ & E)]; [rewrite w_tag_None in E by auto|]; discriminate.
Qed.
Lemma res_err x st e : w_res x st = Err e -> x = Err e.
Proof. destruct x; [discriminate|]. intros [= ->]. auto. Qed.

(** strips writers that cannot fail from the front *)
Ltac front E :=
  match type of E with
  | w_seq (w_record _) _ _ = Err _ =>
      apply w_seq_Err in E as [E|(? & ? & ? & E)]; [discriminate E|];
      match goal with X : w_record _ _ = Ok _ |- _ => apply w_record_Ok in X as [-> ->] end
  | w_seq (w_tag _) _ _ = Err _ =>
      apply w_seq_Err in E as [E|(? & ? & ? & E)]; [rewrite w_tag_None in E by auto; discriminate E|];
      match goal with X : w_tag _ _ = Ok _ |- _ => apply w_tag_Ok in X as (-> & -> & _) end
  | w_seq (w_varint _) _ _ = Err _ =>
      apply w_seq_Err in E as [E|(? & ? & ? & E)]; [discriminate E|];
      match goal with X : w_varint _ _ = Ok _ |- _ => apply w_varint_Ok in X as [-> ->] end
  | w_seq (w_raw _) _ _ = Err _ =>
      apply w_seq_Err in E as [E|(? & ? & ? & E)]; [discriminate E|];
      match goal with X : w_raw _ _ = Ok _ |- _ => apply w_raw_Ok in X as [-> ->] end
  | w_tag _ _ = Err _ => rewrite w_tag_None in E by auto; discriminate E
  | w_raw _ _ = Err _ => discriminate E
  | w_varint _ _ = Err _ => discriminate E
  | w_nil _ = Err _ => discriminate E
  end.

Lemma small_int z st e : es_allowed st = None -> serialize_int z st = Err e -> fails H cfg (VInt z) e.
Proof.
  intros A E. unfold serialize_int in E. destruct (in_uint32 z) eqn:U.
  { unfold write_uint32 in E. apply bind_Err in E as [E|[p [_ E]]]; [|repeat front E].
    apply uint32_bytes_err in E as [_ C]. unfold in_uint32 in U. change (2 ^ 32)%Z with 4294967296%Z in C. lia. }
  destruct (in_int32 z) eqn:I32.
  { unfold write_int32 in E. apply bind_Err in E as [E|[p [_ E]]]; [|repeat front E].
    unfold int32_bytes in E. rewrite I32 in E. discriminate E. }
  destruct (in_safe_int z) eqn:Sf; [unfold write_double in E; repeat front E|].
  rewrite A in E. unfold write_bigint in E. apply bind_Err in E as [E|[p [_ E]]]; [|repeat front E].
  apply bigint_bytes_err in E as [-> B]. constructor; auto.
Qed.
Lemma acyclic_Err sid {A} (x : result A) e : acyclic_exn sid x = Err e ->
  x = Err e /\ e <> EForwardRef sid \/ x = Err (EForwardRef sid) /\ e = EIllegalCyclic.
Proof.
  destruct x as [a|e']; [discriminate|]. intros E.
  destruct e'; cbn [acyclic_exn] in E; try (injection E as <-; left; split; [reflexivity|discriminate]).
  destruct (Nat.eqb_spec id sid) as [->|Ni]; injection E as <-; [right; auto|left; split; auto; congruence].
Qed.

Lemma cause_err o n m s c st r open e : occ (VRef o) -> nth_error H o = Some (OError n m s c) -> c <> VNone ->
  st_ok st r open -> opened open -> reach open (VRef o) -> fresh o r -> enough (S d) (VRef o) r ->
  (if f_circular feat then w_seq (w_record o) (enc c) else w_acyclic o (enc c)) st = Err e -> blame r open e.
Proof.
  intros O Hx Nc So Op Re Fr Nn E.
  assert (Ic : In c (children (OError n m s c))) by (cbn [children]; destruct c; try congruence; left; auto).
  assert (Oc : occ c) by (apply (occ_child_obj H root o _ c O Hx Ic)).
  assert (Ec : enough d c (r ++ [o])) by (eapply enough_child; eauto).
  assert (Rc : reach open c) by (eapply reach_child; eauto).
  destruct (f_circular feat) eqn:Fc.
  - front E. pose proof (st_record H refs root _ _ _ _ So Fr) as So1.
    eapply blame_grow; [exact So|intros; eapply st_NoDup; eauto|]. eapply (proj1 BO); eauto.
  - unfold w_acyclic in E. rewrite open_acyclic_eq in E.
    assert (So1 : st_ok (set_log st (mkLog (dset Nat.eqb (pyid o) (length (log_entries (es_log st))) (log_ids (es_log st))) (log_entries (es_log st) ++ [EFwd None])))
                    (r ++ [o]) (o :: open)).
    { destruct So as (L & S' & A). split; [|split; auto]. cbn [es_log set_log]. apply (logrel_add refs _ _ _ o (EFwd None)); auto. }
    assert (Op1 : opened (o :: open)) by (intros p [<-|Ip]; [exists n, m, s, c; auto|apply Op; auto]).
    assert (R1 : reach (o :: open) c).
    { destruct Re as [Q|Re]; [elim (quiet_no_error _ _ _ _ _ Q Hx)|]. right. intros p [<-|Ip].
      - exists n, m, s, c. split; auto. split; auto. constructor.
      - destruct (Re p Ip) as (n' & m' & s' & c' & Hp & Np & Oc'). exists n', m', s', c'. split; auto. split; auto. econstructor; eauto. }
    assert (Bl : forall e', (do '(x, st0) <- enc c (set_log st (mkLog (dset Nat.eqb (pyid o) (length (log_entries (es_log st))) (log_ids (es_log st))) (log_entries (es_log st) ++ [EFwd None])));
                 Ok (x, set_log st0 (log_set_forward (es_log st0) (length (log_entries (es_log st))) o)))%res = Err e' -> blame (r ++ [o]) (o :: open) e').
    { intros e' E'. apply bind_Err in E' as [E'|[[x s1] [_ E']]]; [|discriminate]. eapply (proj1 BO); eauto. }
    assert (Ln : refs = true -> length (log_entries (es_log st)) = length r) by (destruct So as (L & _); intros Hr; apply (L Hr)).
    apply acyclic_Err in E as [[E Ne]|[E ->]]; apply Bl in E as [(u & Ou & Fu)|[(sid & o' & Hr & Ee & Hn & Io & Cy)|T]].
    + left. eauto.
    + subst e. right. left. exists sid, o'. rewrite (Ln Hr) in Ne. apply snoc_nth in Hn as [Hn|[-> ->]]; [|congruence].
      split; auto. split; auto. split; auto. split; auto. destruct Io as [<-|Io]; auto. elim (Fr Hr). eapply nth_error_In; eauto.
    + right. right. auto.
    + elim (fails_no_forward _ _ Fu).
    + injection Ee as <-. rewrite (Ln Hr) in Hn. rewrite nth_error_app2, Nat.sub_diag in Hn by lia. injection Hn as <-.
      right. right. repeat split; auto. exists o. auto.
    + destruct T as (_ & C & _). discriminate C.
Qed.

Lemma kids_fine o x l open r : occ (VRef o) -> nth_error H o = Some x -> reach open (VRef o) -> fresh o r -> ~ buffer_like x ->
  enough (S d) (VRef o) r -> incl l (children x) -> Forall (fine open (r ++ [o])) l.
Proof.
  intros O Hx Re Fr Nb En I. apply Forall_forall. intros v Iv. apply I in Iv.
  split; [eapply occ_child; eauto|]. split; [eapply reach_child; eauto|eapply enough_child; eauto].
Qed.
Lemma buffer_write_err o b st r open e : st_ok st r open -> (zlen (jb_data b) <= jb_max b)%Z ->
  write_buffer cfg o b st = Err e -> e = EValue /\ (long (jb_data b) \/ (jb_resizable b = true /\ f_resizable feat = true /\ 2 ^ 32 <= jb_max b)%Z).
Proof.
  intros So L E. unfold write_buffer in E. cbv zeta in E. rewrite jsbuf_view_all in E by auto.
  pose proof (st_allowed _ _ _ So) as A.
  assert (Ln : (zlen (jb_data b) < 0 \/ 2 ^ 32 <= zlen (jb_data b))%Z -> long (jb_data b)).
  { unfold long, zlen, lenN. change (2 ^ 32)%Z with 4294967296%Z. change (2 ^ 32) with 4294967296. lia. }
  destruct (jb_resizable b && f_resizable feat) eqn:Rz.
  - apply andb_true_iff in Rz as [R1 R2]. destruct (Z.ltb_spec (jb_max b) (zlen (jb_data b))); [lia|].
    front E. front E. apply w_seq_Err in E as [E|(? & ? & E1 & E)].
    + apply res_err, uint32_bytes_err in E as [-> C]. auto.
    + apply w_res_Ok in E1 as [_ ->]. apply w_seq_Err in E as [E|(? & ? & E1 & E)]; [|discriminate].
      apply res_err, uint32_bytes_err in E as [-> C]. split; auto. right. pose proof (zlen_nonneg (jb_data b)). repeat split; auto. lia.
  - front E. front E. apply w_seq_Err in E as [E|(? & ? & E1 & E)]; [|discriminate].
    apply res_err, uint32_bytes_err in E as [-> C]. auto.
Qed.
Lemma bytes_write_err o dd st e : serialize_buffer H cfg o dd st = Err e -> (forall v s, deduplicate H (VRef o) st = (v, s) -> exists o', v = VRef o') ->
  es_allowed st = None -> e = EValue /\ long dd.
Proof.
  intros E R A. unfold serialize_buffer in E. destruct (deduplicate H (VRef o) st) as [v s] eqn:D. destruct (R v s eq_refl) as [o' Ev]. subst v.
  assert (A' : es_allowed s = None).
  { unfold deduplicate in D. destruct (hash_key H (VRef o)); [destruct (dget _ _ _)|]; inversion D; subst; auto. }
  unfold write_buffer in E. cbv zeta in E. cbn [jb_resizable andb] in E. rewrite jsbuf_view_all in E by (cbn; lia). cbn [jb_data] in E.
  front E. front E. apply w_seq_Err in E as [E|(? & ? & E1 & E)]; [|discriminate].
  apply res_err, uint32_bytes_err in E as [-> C]. split; auto. revert C. unfold long, zlen, lenN. change (2 ^ 32)%Z with 4294967296%Z. change (2 ^ 32) with 4294967296. lia.
Qed.

Lemma tagwriter_err next v st r open e : occ v -> st_ok st r open -> opened open -> reach open v -> enough (S d) v r ->
  (forall o, v = VRef o -> fresh o r) ->
  next v = w_fail EUnhandledValue ->
  step_tagwriter H cfg enc v next st = Err e -> blame r open e.
Proof.
  intros O So Op Re En Fr Nx E. pose proof (st_allowed _ _ _ So) as A. pose proof (WF v O) as Wv.
  assert (Cst : forall t, In t JS_CONSTANT_TAGS -> write_constant t st <> Err e).
  { intros t It Ec. unfold write_constant, constrained in Ec. apply bind_Err in Ec as [Ec|[[x s1] [_ Ec]]]; [|discriminate].
    unfold w_tag in Ec. cbn [es_allowed set_allowed tags_of] in Ec. apply tag_in_In in It. rewrite It in Ec. discriminate. }
  destruct v as [| | |b|z|b|s|o]; cbn [step_tagwriter] in E.
  1-4: elim (fun X => Cst _ X E); try destruct b; cbn [JS_CONSTANT_TAGS In]; auto 10.
  - eapply blame_fails; [exact O|]. eapply small_int; eauto.
  - unfold write_double in E. repeat front E.
  - apply utf8_err in E as [-> Sg]; auto. eapply blame_fails; [exact O|]. constructor; auto.
  - specialize (Fr o eq_refl). destruct Wv as (x & Hx & Wx). rewrite Hx in E.
    assert (Rec : st_ok (set_log st (snd (log_record pyid (es_log st) o))) (r ++ [o]) open) by (apply st_record; auto).
    pose proof (st_allowed _ _ _ Rec) as A1.
    assert (Bk : forall e, blame (r ++ [o]) open e -> blame r open e).
    { intros. eapply blame_grow; [exact So|intros; eapply st_NoDup; eauto|auto]. }
    assert (Kf : forall l, ~ buffer_like x -> incl l (children x) -> Forall (fine open (r ++ [o])) l).
    { intros. eapply kids_fine; eauto. }
    assert (Fl : forall e, fails H cfg (VRef o) e -> blame r open e) by (intros; eapply blame_fails; eauto).
    destruct x as [m|m|x|x|s f|n m s c|t x|dd|b|id|id|b w|id|l|l|t l|dd|dd|]; cbn [wf_obj] in Wx.
    + (* OMap *)
      rewrite jm_items_spec in E by auto. cbn [w_with] in E. unfold write_jsmap in E. front E. front E.
      apply w_seq_Err in E as [E|(? & s1 & E1 & E)].
      * apply Bk. refine (items_err _ _ _ _ _ _ Op Rec E). apply Kf; cbn; auto. apply incl_refl.
      * apply (items_ok H cfg refs node root enc EO _ _ (r ++ [o]) open) in E1 as (? & ? & ? & ? & ? & So1); auto.
        -- pose proof (st_allowed _ _ _ So1). repeat front E.
        -- apply (occ_children H root o _ _ O Hx (incl_refl _)).
    + (* OSet *)
      unfold write_jsset, js_iter in E. front E. front E.
      apply w_seq_Err in E as [E|(? & s1 & E1 & E)].
      * apply Bk. refine (values_err _ _ _ _ _ _ Op Rec E). apply Kf; cbn; auto. apply incl_refl.
      * apply (values_ok H cfg refs node root enc EO _ _ (r ++ [o]) open) in E1 as (? & ? & ? & ? & ? & So1); auto.
        -- pose proof (st_allowed _ _ _ So1). repeat front E.
        -- apply (occ_children H root o _ _ O Hx (incl_refl _)).
    + (* OObject *)
      rewrite jo_items_spec in E by auto. cbn [w_with] in E. unfold write_js_object, write_properties in E. front E. front E.
      apply w_seq_Err in E as [E|(? & s1 & E1 & E)].
      * apply Bk. refine (props_err _ _ _ _ _ (own_small _ Wx) _ Op Rec E). apply Kf; cbn; auto. apply incl_refl.
      * apply (props_ok H cfg refs node root enc EO _ _ (r ++ [o]) open) in E1 as (? & ? & ? & ? & ? & ? & So1); auto using own_simple.
        -- pose proof (st_allowed _ _ _ So1). repeat front E.
        -- apply (occ_children H root o _ _ O Hx (incl_refl _)).
    + (* OArray *)
      pose proof (proj1 Wx) as Ha. unfold serialize_js_array in E. destruct (sparse_is_smaller (jo_arr x)).
      * rewrite jo_items_spec in E by auto. cbn [w_with] in E. unfold write_sparse, write_properties in E.
        destruct (_ || _)%bool eqn:Lr in E.
        { exfalso. rewrite arr_len_eq in Lr by auto. destruct Wx as (_ & _ & _ & _ & _ & Lx). unfold lenN in Lx. unfold ModelArray.zlen in Lr.
          change ModelTags.MAX_ARRAY_LENGTH with 4294967295 in Lr. change (2 ^ 32) with 4294967296 in Lx. lia. }
        front E. front E. front E. apply w_seq_Err in E as [E|(? & s1 & E1 & E)].
        -- apply w_seq_Err in E as [E|(? & s1 & E1 & E)].
           ++ apply Bk. refine (props_err _ _ _ _ _ (own_small _ Wx) _ Op Rec E). apply Kf; cbn; auto. apply incl_appr, incl_refl.
           ++ apply (props_ok H cfg refs node root enc EO _ _ (r ++ [o]) open) in E1 as (? & ? & ? & ? & ? & ? & So1); auto using own_simple.
              ** pose proof (st_allowed _ _ _ So1). repeat front E.
              ** apply (occ_children H root o _ _ O Hx). apply incl_appr, incl_refl.
        -- discriminate E.
      * rewrite arr_iter_eq in E by auto. cbn [w_with] in E. unfold write_dense in E. front E. front E. front E.
        apply w_seq_Err in E as [E|(? & s1 & E1 & E)].
        { apply Bk. refine (values_err _ _ _ _ _ _ Op Rec E). apply Kf; cbn; auto. apply incl_appl, incl_refl. }
        apply (values_ok H cfg refs node root enc EO _ _ (r ++ [o]) open) in E1 as (vs & r1 & D & _ & _ & So1); auto;
          [|apply (occ_children H root o _ _ O Hx); apply incl_appl, incl_refl].
        pose proof (proj1 (proj2 (proj2 (describes_ext H cfg refs node root))) _ _ _ _ _ D) as [g ->].
        assert (Cn : count (map of_elem (aabs (jo_arr x))) = Z.to_N (arr_len (jo_arr x))).
        { rewrite arr_len_eq by auto. unfold count, lenN, ModelArray.zlen. rewrite map_length. lia. }
        rewrite Cn, N.eqb_refl in E. apply w_seq_Err in E as [E|(? & s1' & E1 & E)]; [discriminate E|]. apply w_nil_Ok in E1 as [-> ->].
        change (jo_properties x) with (named_items x) in E.
        apply w_seq_Err in E as [E|(? & s2 & E1 & E)].
        -- apply Bk. eapply blame_grow; [exact Rec|intros; eapply st_NoDup; eauto|].
           refine (props_err _ _ _ _ _ (named_small _ Wx) _ Op So1 E). apply fine_grows, Kf; cbn; auto.
           apply incl_appr. unfold own_items. rewrite flat_app. apply incl_appr, incl_refl.
        -- apply (props_ok H cfg refs node root enc EO _ _ ((r ++ [o]) ++ g) open) in E1 as (? & ? & ? & ? & ? & ? & So2); auto using named_simple.
           ++ pose proof (st_allowed _ _ _ So2). repeat front E.
           ++ apply (occ_children H root o _ _ O Hx). apply incl_appr. unfold own_items. rewrite flat_app. apply incl_appr, incl_refl.
    + (* ORegExp *)
      unfold write_regexp in E. front E. apply w_seq_Err in E as [E|(? & s1 & E1 & E)]; [|discriminate E].
      apply utf8_err in E as [-> Sg]; auto. apply Fl. eapply fl_regexp; eauto.
    + (* OError *)
      destruct Wx as [Wm Ws]. unfold write_error in E. front E.
      assert (Opt : forall ee y st e, es_allowed st = None -> w_opt (fun m => w_seq (w_varint (etag_byte ee)) (write_utf8 m)) y st = Err e ->
                e = EUnicode /\ exists s, y = Some s /\ surrogates s).
      { intros ee y st1 e1 Al E1. destruct y as [y|]; [|discriminate]. cbn [w_opt] in E1. front E1. apply utf8_err in E1 as [-> Sg]; auto. split; eauto. }
      apply w_seq_Err in E as [E|(? & s1 & E1 & E)]; [destruct (ename_tag _); discriminate E|]. apply proto_ok in E1 as [_ ->].
      apply w_seq_Err in E as [E|(? & s1 & E1 & E)].
      { apply Opt in E as (-> & y & -> & Sg); auto. apply Fl. eapply fl_message; eauto. }
      apply opt_str_ok in E1 as [_ ->]; auto.
      apply w_seq_Err in E as [E|(? & s1 & E1 & E)].
      { apply Opt in E as (-> & y & -> & Sg); auto. apply Fl. eapply fl_stack; eauto. }
      apply opt_str_ok in E1 as [_ ->]; auto.
      apply w_seq_Err in E as [E|(? & s1 & E1 & E)]; [|discriminate E].
      assert (C : c = VNone \/ c <> VNone) by (destruct c; auto; right; discriminate). destruct C as [->|Nc]; [discriminate E|].
      assert (E' : w_seq (w_varint (etag_byte eCause)) (if f_circular feat then w_seq (w_record o) (enc c) else w_acyclic o (enc c)) st = Err e)
          by (destruct c; auto; congruence). clear E. front E'. eapply cause_err; eauto.
    + (* OPrim *)
      unfold write_primitive in E. front E. front E.
      destruct t; try contradiction; destruct x as [| | |bb|z|bb|s|]; try contradiction; try (repeat front E).
      * apply res_err, bigint_bytes_err in E as [-> B]. apply Fl. eapply fl_prim_int; eauto.
      * apply res_err, utf8_payload_err in E as [-> B]. apply Fl. eapply fl_prim_str; eauto.
    + (* ODate *)
      unfold write_date in E. destruct (e_timestamp cfg dd) as [b|e'] eqn:Ed; [repeat front E|]. injection E as <-. apply Fl. eapply fl_date; eauto.
    + (* OBuffer *)
      destruct Wx as (Wb & Wl & _). eapply buffer_write_err in E as [-> [C|(C1 & C2 & C3)]]; eauto; apply Fl; [eapply fl_buffer|eapply fl_max]; eauto.
    + unfold write_buffer_id in E. repeat front E.
    + unfold write_buffer_id in E. repeat front E.
    + (* OView *)
      pose proof Wx as [Wv (y & Hb & Hy)]. destruct (vtag_beq (vw_tag w) vFloat16 && negb (f_float16 feat)) eqn:F16.
      { rewrite Nx in E. injection E as <-. apply andb_true_iff in F16 as [F1 F2]. apply Fl. apply fl_float16 with (b := b) (w := w); auto.
        - destruct (vw_tag w); try discriminate; auto.
        - destruct (f_float16 feat); auto; discriminate. }
      assert (Ob : occ (VRef b)) by (apply (occ_child_obj H root o _ _ O Hx); left; auto).
      assert (Rb : reach open (VRef b)) by (eapply reach_child; eauto; left; auto).
      apply w_seq_Err in E as [E|(? & s1 & E1 & E)].
      { apply (proj1 BO (VRef b) st); auto. eapply enough_view; eauto. }
      destruct (proj1 EO _ _ _ _ _ _ Ob So E1) as (wb & r1 & D & Wi & So1). pose proof (st_allowed _ _ _ So1).
      destruct (view_size o b w O Hx) as [Fb|[Z1 Z2]]; unfold write_view in E; rewrite F16 in E; front E; front E; front E.
      * assert (e = EValue); [|subst; eapply blame_fails; eauto].
        apply w_seq_Err in E as [E|(? & ? & E2 & E)]; [apply res_err, uint32_bytes_err in E; apply E|].
        apply w_seq_Err in E as [E|(? & ? & E3 & E)]; [apply res_err, uint32_bytes_err in E; apply E|discriminate].
      * apply w_seq_Err in E as [E|(? & ? & E2 & E)]; [apply res_err, uint32_bytes_err in E as [_ C]; lia|].
        apply w_seq_Err in E as [E|(? & ? & E3 & E)]; [apply res_err, uint32_bytes_err in E as [_ C]; lia|discriminate].
    + (* OSharedRef *)
      unfold write_shared_ref in E. front E. front E. apply res_err, uint32_bytes_err in E as [_ C]. exfalso.
      change (2 ^ 32)%Z with 4294967296%Z in C. change (2 ^ 32) with 4294967296 in Wx. lia.
    + (* ODict *)
      unfold write_jsmap in E. front E. front E.
      apply w_seq_Err in E as [E|(? & s1 & E1 & E)].
      * apply Bk. refine (items_err _ _ _ _ _ _ Op Rec E). apply Kf; cbn; auto. apply incl_refl.
      * apply (items_ok H cfg refs node root enc EO _ _ (r ++ [o]) open) in E1 as (? & ? & ? & ? & ? & So1); auto.
        -- pose proof (st_allowed _ _ _ So1). repeat front E.
        -- apply (occ_children H root o _ _ O Hx (incl_refl _)).
    + (* OPySet *)
      unfold write_jsset in E. front E. front E.
      apply w_seq_Err in E as [E|(? & s1 & E1 & E)].
      * apply Bk. refine (values_err _ _ _ _ _ _ Op Rec E). apply Kf; cbn; auto. apply incl_refl.
      * apply (values_ok H cfg refs node root enc EO _ _ (r ++ [o]) open) in E1 as (? & ? & ? & ? & ? & So1); auto.
        -- pose proof (st_allowed _ _ _ So1). repeat front E.
        -- apply (occ_children H root o _ _ O Hx (incl_refl _)).
    + (* OSeq *)
      unfold write_dense in E. front E. front E. front E.
      apply w_seq_Err in E as [E|(? & s1 & E1 & E)].
      * apply Bk. refine (values_err _ _ _ _ _ _ Op Rec E). apply Kf; cbn; auto. apply incl_refl.
      * apply (values_ok H cfg refs node root enc EO _ _ (r ++ [o]) open) in E1 as (? & ? & ? & ? & ? & So1); auto.
        -- pose proof (st_allowed _ _ _ So1). rewrite N.eqb_refl in E. cbn [w_items] in E.
           apply w_seq_Err in E as [E|(? & ? & E2 & E)]; [discriminate E|]. apply w_nil_Ok in E2 as [-> ->].
           apply w_seq_Err in E as [E|(? & ? & E2 & E)]; [discriminate E|]. apply w_nil_Ok in E2 as [-> ->]. repeat front E.
        -- apply (occ_children H root o _ _ O Hx (incl_refl _)).
    + (* OBytes *)
      apply bytes_write_err in E as [-> C]; auto; [apply Fl; eapply fl_bytes; eauto|]. intros v s Ed.
      destruct (dedup_spec H root _ _ _ _ (proj1 (proj2 So)) O Ed) as ([<-|(K1 & K2 & _)] & _); eauto.
      destruct (hash_key_eq H _ _ K1 K2) as [b0 ->]. eauto.
    + apply bytes_write_err in E as [-> C]; auto; [apply Fl; eapply fl_bytearray; eauto|]. intros v s Ed.
      destruct (dedup_spec H root _ _ _ _ (proj1 (proj2 So)) O Ed) as ([<-|(K1 & K2 & _)] & _); eauto.
      destruct (hash_key_eq H _ _ K1 K2) as [b0 ->]. eauto.
    + rewrite Nx in E. injection E as <-. apply Fl. constructor; auto.
Qed.

(** * The chain of steps *)
Lemma tail_err v st r open e : occ v -> st_ok st r open -> opened open -> reach open v -> enough (S d) v r ->
  (forall o, v = VRef o -> fresh o r) ->
  chain enc ((if node then [step_node H] else []) ++ [step_tagwriter H cfg]) v st = Err e -> blame r open e.
Proof.
  intros O So Op Re En Fr E. pose proof (st_allowed _ _ _ So) as A.
  assert (T : step_tagwriter H cfg enc v (chain enc []) st = Err e -> blame r open e).
  { intros Et. apply (tagwriter_err (chain enc []) v st r open e); auto. }
  assert (Hn : node = true \/ node = false) by (destruct node; auto). destruct Hn as [Hn|Hn]; rewrite Hn in E; cbn [app chain] in E; [|apply T; exact E].
  unfold step_node in E. destruct v as [| | |b|z|b|s|o]; try (apply T; exact E).
  destruct (nth_error H o) as [x|] eqn:Hx; [|apply T; exact E].
  destruct x; try (apply T; exact E). destruct (node_code (vw_tag v)) as [code|] eqn:Nc; [|apply T; exact E].
  assert (Ob : occ (VRef buffer)) by (apply (occ_child_obj H root o _ _ O Hx); left; auto).
  assert (Cs : code < 13) by (destruct (vw_tag v); cbn [node_code] in Nc; try discriminate; injection Nc as <-; reflexivity).
  unfold write_node_view in E. front E. apply w_seq_Err in E as [E|(? & ? & E2 & E)].
  - apply res_err, uint32_bytes_err in E as [_ C]. lia.
  - apply w_seq_Err in E as [E|(? & ? & E3 & E)]; [|discriminate]. apply res_err, uint32_bytes_err in E as [-> C].
    destruct (view_size o buffer v O Hx) as [Fb|[Z1 Z2]]; [eapply blame_fails; eauto|]. unfold view_byte_length in Z2. lia.
Qed.
Lemma tail_key_err k st r open e : small_key k -> occ k -> st_ok st r open ->
  chain enc ((if node then [step_node H] else []) ++ [step_tagwriter H cfg]) k (set_allowed st (Some KeyTags)) = Err e -> blame r open e.
Proof.
  intros Sk O So E.
  assert (E' : step_tagwriter H cfg enc k (chain enc []) (set_allowed st (Some KeyTags)) = Err e).
  { destruct node; cbn [app chain] in E; auto. destruct k; try contradiction; auto. }
  destruct k as [| | |b|z|b|s|o]; try contradiction; cbn [step_tagwriter] in E'.
  - cbn [small_key] in Sk. unfold serialize_int in E'. unfold in_uint32 in E'. change (2 ^ 32)%Z with 4294967296%Z in Sk.
    destruct ((0 <=? z) && (z <? 4294967296))%Z eqn:U; [|lia]. unfold write_uint32 in E'.
    apply bind_Err in E' as [E'|[p [_ E']]]; [|discriminate E']. apply uint32_bytes_err in E' as [_ C]. change (2 ^ 32)%Z with 4294967296%Z in C. lia.
  - unfold write_utf8 in E'. apply bind_Err in E' as [E'|[p [_ E']]]; [|discriminate E'].
    apply utf8_payload_err in E' as [-> Sg]. eapply blame_fails; [exact O|]. constructor; auto.
Qed.
End Loops.

Lemma chain_err d enc : enc_ok H cfg refs node root enc -> blames d enc -> blames (S d) (chain enc steps).
Proof.
  intros EO BO. assert (Hr : refs = true \/ refs = false) by (destruct refs; auto). unfold steps_of. destruct Hr as [Hr|Hr].
  - split.
    + intros v st r open e O So Op Re En E.
      assert (E' : step_references H enc v (chain enc ((if node then [step_node H] else []) ++ [step_tagwriter H cfg])) st = Err e).
      { rewrite Hr in E. exact E. } clear E. unfold step_references in E'.
      destruct (deduplicate H v st) as [v0 s0] eqn:Ed.
      pose proof (dedup_st H refs root _ _ _ _ _ _ So O Ed) as So0.
      destruct (dedup_spec H root _ _ _ _ (proj1 (proj2 So)) O Ed) as (Ev & Ov & _ & _ & _ & D0).
      assert (Rp : rep v v0) by (unfold rep_of; rewrite Hr; auto).
      apply (reach_rep open v v0) in Re; auto. apply (enough_rep _ _ _ _ En) in Rp as En0.
      assert (T : (forall o, v0 = VRef o -> fresh o r) ->
                  chain enc ((if node then [step_node H] else []) ++ [step_tagwriter H cfg]) v0 s0 = Err e -> blame r open e).
      { intros Fr Et. eapply tail_err; eauto. }
      destruct v0 as [| | |b|z|b|s|o]; try (apply T; auto; intros; discriminate).
      destruct So0 as (L0 & Sn0 & A0). destruct (L0 Hr) as (Ln & Nd & Ic & Id & Ent).
      destruct (log_contains pyid (es_log s0) o) eqn:Lc.
      * clear T. unfold write_reference in E'. apply bind_Err in E' as [E|[sid [_ E]]].
        -- unfold log_contains, dmem, log_get_serialized_id, pyid in *. destruct (dget Nat.eqb o _) as [i|] eqn:Di; [|discriminate].
           assert (Io : In o r). { destruct (in_dec Nat.eq_dec o r) as [|N]; auto. apply Id in N. congruence. }
           apply In_nth_error in Io as [j Hj]. destruct (Ent _ _ Hj) as (Dj & e0 & Ee & Eo). rewrite Di in Dj. injection Dj as ->.
           rewrite Ee in E. destruct e0 as [|[|]]; try discriminate. injection E as <-.
           assert (Io : In o open) by (apply Eo; auto). right. left. exists j, o. repeat split; auto.
           destruct Re as [Q|Re].
           ++ destruct (Op o Io) as (n & m & s & c & Ho & _). elim (quiet_no_error _ _ _ _ _ Q Ho).
           ++ exact (Re o Io).
        -- exfalso. apply w_seq_Err in E as [E|(? & ? & _ & E)]; [rewrite w_tag_None in E by auto|]; discriminate.
      * apply T; auto. intros o' [= <-] _. apply Id. unfold log_contains, dmem, pyid in Lc. destruct (dget Nat.eqb o (log_ids (es_log s0))); auto; discriminate.
    + intros k st r open e Sk O So En E.
      assert (E' : step_references H enc k (chain enc ((if node then [step_node H] else []) ++ [step_tagwriter H cfg])) (set_allowed st (Some KeyTags)) = Err e).
      { rewrite Hr in E. exact E. } clear E. unfold step_references in E'.
      destruct (deduplicate H k (set_allowed st (Some KeyTags))) as [v0 s0] eqn:Ed.
      assert (Sn : seen_ok H root (set_allowed st (Some KeyTags))) by (apply So).
      destruct (dedup_spec H root _ _ _ _ Sn O Ed) as (Ev & Ov & S0 & El & Ea & D0).
      assert (v0 = k).
      { destruct Ev as [<-|(A & B & _)]; auto. pose proof (hash_key_eq H k v0 A B) as X. destruct k; try contradiction; auto. }
      subst v0. cbn [es_log es_allowed set_allowed] in El, Ea.
      assert (So0 : st_ok (set_allowed s0 None) r open).
      { destruct So as (L & _ & _). split; [cbn [es_log set_allowed]; rewrite El; auto|]. split; auto. }
      assert (Es : s0 = set_allowed (set_allowed s0 None) (Some KeyTags)) by (destruct s0; cbn in *; subst; reflexivity).
      apply (tail_key_err d enc EO k (set_allowed s0 None) r open e); auto. rewrite <- Es. destruct k; try contradiction; exact E'.
  - split.
    + intros v st r open e O So Op Re En E. rewrite Hr in E. cbn [app] in E. eapply tail_err; eauto. intros o _ C. congruence.
    + intros k st r open e Sk O So En E. rewrite Hr in E. cbn [app] in E. eapply tail_key_err; eauto.
Qed.
Lemma encode_blames d : blames d (encode d steps).
Proof.
  induction d as [|d IH].
  - split; [intros v st r open e _ _ _ _ En _|intros k st r open e _ _ _ En _]; elim (enough_pos _ _ En).
  - apply (chain_err d _ (encode_ok H cfg refs node root WF d) IH).
Qed.

(** Why dumps raises. *)
Definition excuse (e : exn) : Prop :=
  (exists u, occ u /\ fails H cfg u e) \/
  (refs = true /\ e = EIllegalCyclic /\ f_circular feat = false /\ exists o, occ (VRef o) /\ cyclic_error H o).
Lemma sized_err size d e : enough d root [] -> encode_sized size d steps root = Err e -> excuse e.
Proof.
  intros En E. unfold encode_sized in E. apply bind_Err in E as [E|[[b st] [_ E]]]; [|discriminate].
  assert (B : blame [] [] e).
  { apply (proj1 (encode_blames d) root (es_sized size) [] [] e); auto; [constructor|apply st_sized|intros o []|right; intros o []]. }
  destruct B as [B|[(sid & o & _ & _ & B & _)|B]]; [left; auto|destruct sid; discriminate|right; auto].
Qed.
Lemma dumps_err d e : enough d root [] -> dumps_depth d steps root = Err e -> excuse e.
Proof. exact (sized_err None d e). Qed.
Lemma excuse_fuel : ~ excuse EOutOfFuel.
Proof.
  intros [(u & _ & F)|(_ & C & _)]; [|discriminate]. inversion F. match goal with X : date_err ?e = _ |- _ => destruct e; discriminate X end.
Qed.
Lemma dumps_stable d d' : enough d root [] -> (d <= d')%nat -> dumps_depth d' steps root = dumps_depth d steps root.
Proof.
  intros En L. unfold dumps_depth. destruct (encode_mono H cfg refs node d d' root L es_empty) as [E| ->]; auto.
  elim excuse_fuel. eapply (dumps_err d); eauto. unfold dumps_depth. rewrite E. reflexivity.
Qed.
Lemma unrec_nil : unrec H [] = length H.
Proof.
  unfold unrec. assert (X : forall l : list nat, filter (fun o => negb (existsb (Nat.eqb o) [])) l = l).
  { induction l; cbn; auto. f_equal. auto. } rewrite X. apply seq_length.
Qed.
End Blame.
