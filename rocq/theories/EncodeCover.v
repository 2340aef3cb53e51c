(** A description of a value covers every value that occurs in it: nothing is left out. *)
From Coq Require Import List NArith ZArith Bool Lia.
From Verif Require Import Base ModelTags ModelArray SpecArray ArrayFacts3 ModelValue ModelObject ModelBuffer ModelHeap ModelDecode SpecWire ModelEncode SpecEncode SpecFail KeyFacts HashFacts HashFacts2
  EncodeFacts EncodeFacts2 EncodeFacts3.
Import ListNotations.
Open Scope N_scope.

Lemma occurs_trans H a b c : occurs H a b -> occurs H b c -> occurs H a c.
Proof. intros A. induction 1; auto. econstructor; eauto. Qed.

Section Cover.
Variable H : heap.
Variable cfg : ecfg.
Variables refs node : bool.
Variable root : val.
Hypothesis WF : wf_graph H cfg root.
Notation feat := (e_features cfg).
Notation rep := (rep_of H refs root).
Notation occ := (occurs H root).
Notation desc := (describes H cfg refs node rep).
Notation wrt := (writes H cfg refs node rep).
Notation vals_of := (wvals_of H cfg refs node rep).
Notation pairs_of := (wpairs_of H cfg refs node rep).

Notation unsupported := (unsupported H cfg).
Definition harmless (v : val) : Prop :=
  match v with VRef o => exists x, nth_error H o = Some x /\ buffer_like x | _ => True end.
(** [teq]: what deduplicate replaces; [meq]: what it replaces within tuples *)
Definition teq (a b : val) : Prop := a = b \/ (refs = true /\ heq H a b /\ type_of H a = type_of H b).
Definition meq (a b : val) : Prop := a = b \/ (refs = true /\ heq H a b).
Lemma teq_refl a : teq a a.
Proof. left. auto. Qed.
Lemma teq_trans a b c : teq a b -> teq b c -> teq a c.
Proof. intros [->|(R & E & T)]; auto. intros [<-|(_ & E' & T')]; right; split; auto. split; [eapply heq_trans; eauto|congruence]. Qed.
Lemma teq_meq a b : teq a b -> meq a b.
Proof. intros [->|(R & E & T)]; [left|right]; auto. Qed.
Lemma meq_heq a b : meq a b -> heq H a b.
Proof. intros [->|(_ & E)]; [apply heq_refl|auto]. Qed.
Lemma teq_heq a b : teq a b -> heq H a b.
Proof. intros E. apply meq_heq, teq_meq, E. Qed.
Lemma meq_trans a b c : meq a b -> meq b c -> meq a c.
Proof. intros [->|(R & E)]; auto. intros [<-|(_ & E')]; right; split; auto. eapply heq_trans; eauto. Qed.
Definition cov (F : list nat) (v : val) : Prop := harmless v \/ exists o0, In o0 F /\ teq v (VRef o0).
Definition mcov (F : list nat) (v : val) : Prop := harmless v \/ exists o0, In o0 F /\ meq v (VRef o0).
Lemma cov_mcov F v : cov F v -> mcov F v.
Proof. intros [A|(o & I & E)]; [left; auto|right]. exists o. split; auto. apply teq_meq; auto. Qed.
Definition good (F : list nat) (o : nat) : Prop :=
  ~ unsupported o /\ forall x c, nth_error H o = Some x -> (forall b w, x <> OView b w) -> In c (children x) -> cov F c.
Lemma cov_incl F G v : incl F G -> cov F v -> cov G v.
Proof. intros I [A|(o & B & C)]; [left; auto|]. right. exists o. auto. Qed.
Lemma good_incl F G o : incl F G -> good F o -> good G o.
Proof. intros I (A & B). split; auto. intros x c Hx Nv Ic. eapply cov_incl; eauto. Qed.
Lemma rep_teq v v0 : rep v v0 -> teq v v0.
Proof.
  unfold rep_of, teq. destruct refs; [|intros ->; left; auto]. intros [->|(A & B & _)]; [left; auto|]. right. split; auto.
  unfold hash_key in A, B. destruct (hash H (S (length H)) v) as [k|] eqn:E; [|congruence].
  destruct (hash H (S (length H)) v0) as [k0|] eqn:E0; [|congruence]. injection B as T <-. split; auto. right. exists (S (length H)). eauto.
Qed.
Lemma rep_heq v v0 : rep v v0 -> heq H v v0.
Proof. intros R. apply teq_heq, rep_teq, R. Qed.

(** what was recorded matters only with references; open errors cannot be referenced *)
Definition base (open r : list nat) : list nat := if refs then filter (fun o => negb (existsb (Nat.eqb o) open)) r else [].
Lemma base_in open r o : In o (base open r) <-> refs = true /\ In o r /\ ~ In o open.
Proof.
  unfold base. destruct refs; [|split; [intros []|intros [? _]; discriminate]]. rewrite filter_In, negb_true_iff.
  assert (X : existsb (Nat.eqb o) open = true <-> In o open).
  { rewrite existsb_exists. split; [intros (x & A & B); apply Nat.eqb_eq in B; subst; auto|exists o; split; auto; apply Nat.eqb_refl]. }
  destruct (existsb (Nat.eqb o) open); intuition congruence.
Qed.
(** [F]: the objects written *)
Definition covers (P : list nat -> Prop) (open r r' : list nat) : Prop :=
  exists F, (forall o, In o F -> good (F ++ base open r) o) /\ P (F ++ base open r) /\ incl (base open r') (F ++ base open r) /\
    (refs = true -> incl r r') /\ (forall o, In o F -> fresh refs o r) /\
    (refs = true -> forall o x, In o F -> nth_error H o = Some x -> children x <> [] -> (forall b w, x <> OView b w) -> In o r').
(* nothing written *)
Lemma covers_none (P : list nat -> Prop) open r : P (base open r) -> covers P open r r.
Proof. intros A. exists []. split; [intros o []|]. split; [exact A|]. split; [apply incl_refl|]. split; [intros _; apply incl_refl|split; [intros o []|intros _ o x []]]. Qed.
(* a leaf written *)
Lemma covers_leaf o x v open r r' : nth_error H o = Some x -> children x = [] -> ~ unsupported o -> teq v (VRef o) -> fresh refs o r ->
  (refs = true -> r' = r \/ r' = r ++ [o]) -> covers (fun F => cov F v) open r r'.
Proof.
  intros Hx Nc Nu E Fr I. exists [o]. split; [|split; [|split; [|split; [|split]]]].
  - intros p [<-|[]]. split; auto. intros y c Hy _ Ic. rewrite Hx in Hy. injection Hy as <-. rewrite Nc in Ic. contradiction.
  - right; exists o; split; auto; left; auto.
  - intros p Ip. apply base_in in Ip as (Hr & Ip & No). rewrite in_app_iff, base_in. destruct (I Hr) as [-> | ->]; [tauto|].
    apply in_app_iff in Ip. cbn [In] in *. tauto.
  - intros Hr. destruct (I Hr) as [-> | ->]; [apply incl_refl|apply incl_appl, incl_refl].
  - intros p [<-|[]]. auto.
  - intros _ p y [<-|[]] Hy. congruence.
Qed.
(* a container written: the children after it *)
Lemma covers_box o x (P : list nat -> Prop) open open0 r r' : nth_error H o = Some x -> ~ unsupported o -> fresh refs o r ->
  covers P open0 (r ++ [o]) r' -> (open0 = open \/ open0 = o :: open) -> (forall F, P F -> forall c, In c (children x) -> cov F c) ->
  covers (fun F => cov F (VRef o)) open r r'.
Proof.
  intros Hx Nu Fr (F & G & PF & I & Ir & Ff & Fi) I0 C. exists (o :: F).
  assert (Q : incl (F ++ base open0 (r ++ [o])) ((o :: F) ++ base open r)).
  { intros p. cbn. rewrite !in_app_iff, !base_in, in_app_iff. intros [|(Hr & Ip & No)]; auto.
    destruct I0 as [->| ->]; cbn [In] in *; tauto. }
  split; [|split; [|split; [|split; [|split]]]].
  - intros p [<-|Ip]; [|eapply good_incl; [exact Q|auto]]. split; auto. intros y c Hy _ Ic. rewrite Hx in Hy. injection Hy as <-.
    eapply cov_incl; [exact Q|]. eapply C; eauto.
  - right. exists o. split; [left; auto|apply teq_refl].
  - intros p Ip. destruct (Nat.eq_dec p o) as [->|Np]; [left; auto|]. apply Q, I. apply base_in. apply base_in in Ip as (Hr & Ip & No).
    split; auto. split; auto. destruct I0 as [->| ->]; cbn [In]; intuition congruence.
  - intros Hr p Ip. apply (Ir Hr), in_app_iff. auto.
  - intros p [<-|Ip]; auto. intros Hr Ip'. apply (Ff _ Ip Hr), in_app_iff. auto.
  - intros Hr p y [<-|Ip] Hy Nc Nv; [apply (Ir Hr), in_app_iff; right; left; auto|eapply (Fi Hr); eauto].
Qed.
Definition mono (P : list nat -> Prop) : Prop := forall F G, incl F G -> P F -> P G.
Lemma covers_seq (P Q : list nat -> Prop) open r r1 r' : mono P -> mono Q -> covers P open r r1 -> covers Q open r1 r' ->
  covers (fun F => P F /\ Q F) open r r'.
Proof.
  intros MP MQ (F & GF & PF & IF_ & I1r & Ff & Fi) (G & GG & QG & IG & I2r & Fg & Gi). exists (G ++ F).
  assert (I1 : incl (F ++ base open r) ((G ++ F) ++ base open r)) by (rewrite <- app_assoc; apply incl_appr, incl_refl).
  assert (I2 : incl (G ++ base open r1) ((G ++ F) ++ base open r)).
  { intros p. rewrite !in_app_iff. intros [|Ip]; auto. apply IF_, in_app_iff in Ip. tauto. }
  split; [|split; [split|split; [|split; [|split]]]].
  - intros o Io. apply in_app_iff in Io as [Io|Io]; [apply (good_incl _ _ _ I2); auto|apply (good_incl _ _ _ I1); auto].
  - apply (MP _ _ I1); auto.
  - apply (MQ _ _ I2); auto.
  - eapply incl_tran; [eassumption|auto].
  - intros Hr. eapply incl_tran; [apply (I1r Hr)|apply (I2r Hr)].
  - intros o Io. apply in_app_iff in Io as [Io|Io]; auto. intros Hr C. apply (Fg _ Io Hr), (I1r Hr), C.
  - intros Hr o x Io Hx Nc Nv. apply in_app_iff in Io as [Io|Io]; [eapply (Gi Hr); eauto|apply (I2r Hr); eapply (Fi Hr); eauto].
Qed.
Lemma mono_cov v : mono (fun F => cov F v).
Proof. intros F G I. apply cov_incl; auto. Qed.
Lemma mono_all l : mono (fun F => Forall (cov F) l).
Proof. intros F G I. apply Forall_impl. intros v. apply cov_incl; auto. Qed.
Lemma covers_impl (P Q : list nat -> Prop) open r r' : (forall F, P F -> Q F) -> covers P open r r' -> covers Q open r r'.
Proof. intros I (F & A & B & C). exists F. auto. Qed.
Lemma not_unsupported o x : nth_error H o = Some x -> x <> OOpaque -> (forall b w, x <> OView b w) -> ~ unsupported o.
Proof. intros Hx N1 N2 [E|(b & w & E & _)]; rewrite Hx in E; injection E as ->; [congruence|elim (N2 b w); auto]. Qed.

Lemma all_in (F : list nat) l c : Forall (cov F) l -> In c l -> cov F c.
Proof. intros A. apply (proj1 (Forall_forall _ _) A). Qed.

Lemma elements_own (x : jsobj val) c : In c (elements x) -> c = VHole \/ In c (flat (own_items x)).
Proof.
  unfold elements, own_items. intros I. apply in_map_iff in I as ([v|] & <- & I); [|left; auto]. right. cbn [of_elem].
  rewrite flat_app. apply in_app_iff. left. generalize 0%Z. induction (aabs (jo_arr x)) as [|[e|] l IH]; intros j; [contradiction| |].
  - cbn [entries_from map flat flat_map fst snd app]. destruct I as [[= ->]|I]; [right; left; auto|right; right; apply IH; auto].
  - destruct I as [|I]; [discriminate|]. apply IH; auto.
Qed.
Lemma own_elements (x : jsobj val) c : In c (flat (own_items x)) -> (exists z, c = VInt z) \/ In c (elements x) \/ In c (flat (named_items x)).
Proof.
  unfold elements, own_items. rewrite flat_app. intros I. apply in_app_iff in I as [I|I]; auto.
  assert (Q : (exists z, c = VInt z) \/ In c (map of_elem (aabs (jo_arr x)))); [|tauto].
  revert I. generalize 0%Z. induction (aabs (jo_arr x)) as [|[e|] l IH]; intros j I; [contradiction| |].
  - cbn [entries_from map flat flat_map fst snd app] in I. destruct I as [<-|[<-|I]]; [eauto|right; left; auto|].
    apply IH in I as [I|I]; auto. right. right. auto.
  - apply IH in I as [I|I]; auto. right. right. auto.
Qed.

Lemma describes_covers :
  (forall open key v r w r', desc open key v r w r' -> covers (fun F => cov F v) open r r') /\
  (forall open key v r w r', wrt open key v r w r' -> covers (fun F => cov F v) open r r') /\
  (forall open l r ws r', vals_of open l r ws r' -> covers (fun F => Forall (cov F) l) open r r') /\
  (forall open key l r ps r', pairs_of open key l r ps r' -> covers (fun F => Forall (cov F) (flat l)) open r r').
Proof.
  apply describes_mutind; intros.
  all: try (apply covers_none; first [left; exact I|apply Forall_nil]).
  all: try (match goal with X : nth_error H ?o = Some ?x, Fr : fresh refs ?o ?r |- covers _ ?open ?r ?r' =>
    eapply (covers_leaf o x (VRef o) open r r' X);
      [reflexivity|eapply not_unsupported; [exact X|discriminate|discriminate]|apply teq_refl|exact Fr|
       intros Hr; try match goal with Y : refs = true -> _ |- _ => rewrite (Y Hr) end; auto]; fail end).
  all: try (match goal with X : nth_error H ?o = Some ?x, Fr : fresh refs ?o ?r, C : covers ?P ?open0 (?r ++ [?o]) ?r' |- covers _ ?open ?r ?r' =>
    apply (covers_box o x P open open0 r r' X); [eapply not_unsupported; [exact X|discriminate|discriminate]|exact Fr|exact C|auto|
      cbn [children]; intros F PF c Ic; eapply all_in; eauto] end; fail).
  - (* dedup *) match goal with X : rep ?v ?v0 |- _ => apply rep_teq in X as Tq; pose proof (teq_heq _ _ Tq) as Hq end. eapply covers_impl; [|eassumption].
    intros F [A|(o0 & Io & E)].
    + destruct v0 as [| | |b|z|b|s|o].
      8: { apply heq_ref in Hq as Hv. destruct Hv as [o' ->]. left. apply heq_obj in Hq as [->|(x & x' & Hx & Hx' & Ob)]; auto.
           destruct A as (y & Hy & B). rewrite Hx' in Hy. injection Hy as ->. exists x. split; auto. destruct x; cbn in Ob; try contradiction; cbn; auto.
           all: try (subst; contradiction).
           all: try (destruct Ob as (? & -> & _); contradiction).
           all: try (destruct Ob as (? & ? & -> & _); contradiction).
           all: destruct Ob as (_ & Ob); try destruct Ob as (? & -> & _); subst; contradiction. }
      all: left; destruct v as [| | |b1|z1|b1|s1|o]; try exact I; apply heq_sym in Hq; apply heq_ref in Hq as [? ?]; discriminate.
    + right. exists o0. split; auto. eapply teq_trans; eauto.
  - (* reference *) apply covers_none. right. exists o. split; [apply base_in; split; [auto|split; [eapply nth_error_In; eauto|auto]]|apply teq_refl].
  - (* error with a cause *)
    match goal with X : nth_error H ?o = Some ?x, Fr : fresh refs ?o ?r, C : covers ?P ?open0 (?r ++ [?o]) ?r' |- covers _ ?open ?r ?r' =>
      apply (covers_box o x P open open0 r r' X); [eapply not_unsupported; [exact X|discriminate|discriminate]|exact Fr|exact C|destruct (f_circular feat); auto|] end.
    cbn [children]. intros F PF c0 Ic. destruct c; try contradiction; destruct Ic as [<-|[]]; exact PF.
  - (* dense *)
    match goal with X : nth_error H ?o = Some ?x, Fr : fresh refs ?o ?r, C1 : covers ?P ?open (?r ++ [?o]) ?r1, C2 : covers ?Q ?open ?r1 ?r' |- covers _ ?open ?r ?r' =>
      pose proof (covers_seq P Q _ _ _ _ (mono_all _) (mono_all _) C1 C2) as C;
      apply (covers_box o x _ open open r r' X) with (4 := or_introl eq_refl) (3 := C); [eapply not_unsupported; [exact X|discriminate|discriminate]|exact Fr|] end.
    cbn [children]. intros F [PF QF] c0 Ic. apply in_app_iff in Ic as [Ic|Ic]; [apply (all_in _ _ _ PF Ic)|].
    apply own_elements in Ic as [[z ->]|[Ic|Ic]]; [left; exact I|apply (all_in _ _ _ PF Ic)|apply (all_in _ _ _ QF Ic)].
  - (* sparse *)
    match goal with X : nth_error H ?o = Some ?x, Fr : fresh refs ?o ?r, C : covers ?P ?open0 (?r ++ [?o]) ?r' |- covers _ ?open ?r ?r' =>
      apply (covers_box o x P open open0 r r' X); [eapply not_unsupported; [exact X|discriminate|discriminate]|exact Fr|exact C|auto|] end.
    cbn [children]. intros F PF c0 Ic. apply in_app_iff in Ic as [Ic|Ic]; [|eapply all_in; eauto].
    apply elements_own in Ic as [->|Ic]; [left; exact I|eapply all_in; eauto].
  - (* view *)
    match goal with C : covers _ open r r1 |- _ => destruct C as (F & G & _ & I0 & Ir & Ff & Fi) end.
    exists (o :: F). assert (Q : incl (F ++ base open r) ((o :: F) ++ base open r)) by (apply incl_tl, incl_refl).
    split; [|split; [|split; [|split; [|split]]]].
    + intros p [<-|Ip]; [|eapply good_incl; [exact Q|auto]]. split; [|congruence].
      intros [E|(b' & w0 & E & E1 & E2)]; [congruence|]. rewrite E in *.
      match goal with X : Some _ = Some _ |- _ => injection X as -> -> end.
      match goal with X : _ -> f_float16 feat = true |- _ => rewrite X in E2 by auto end. discriminate.
    + right. exists o. split; [left; auto|apply teq_refl].
    + intros p Ip. destruct (Nat.eq_dec p o) as [->|Np]; [left; auto|]. apply Q, I0, base_in. apply base_in in Ip as (Hr & Ip & No).
      split; auto. split; auto. apply in_app_iff in Ip as [Ip|[Ip|[]]]; congruence.
    + intros Hr p Ip. apply in_app_iff. left. apply (Ir Hr). auto.
    + intros p [<-|Ip]; auto.
    + intros Hr p y [<-|Ip] Hy Nc Nv; [congruence|]. apply in_app_iff. left. eapply (Fi Hr); eauto.
  - (* node *)
    exists [o]. split; [|split; [right; exists o; split; [left; auto|apply teq_refl]|split; [apply incl_tl, incl_refl|split; [intros _; apply incl_refl|split; [intros p [<-|[]]; auto|intros _ p y [<-|[]] Hy; congruence]]]]].
    intros p [<-|[]]. split; [|congruence]. intros [E|(b' & w0 & E & E1 & E2)]; [congruence|]. rewrite E in *.
    match goal with X : Some _ = Some _ |- _ => injection X as -> -> end. rewrite E1 in *. discriminate.
  - (* values *)
    match goal with C1 : covers ?P ?open ?r ?r1, C2 : covers ?Q ?open ?r1 ?r' |- covers _ ?open ?r ?r' =>
      pose proof (covers_seq P Q _ _ _ _ (mono_cov _) (mono_all _) C1 C2) as C end.
    eapply covers_impl; [|exact C]. intros F [A B]. constructor; auto.
  - (* pairs *)
    match goal with C1 : covers ?P ?open ?r ?r1, C2 : covers ?Q ?open ?r1 ?r2, C3 : covers ?T ?open ?r2 ?r' |- covers _ ?open ?r ?r' =>
      pose proof (covers_seq Q T _ _ _ _ (mono_cov _) (mono_all _) C2 C3) as C0;
      pose proof (covers_seq P _ _ _ _ _ (mono_cov _) (fun F G I X => conj (mono_cov _ F G I (proj1 X)) (mono_all _ F G I (proj2 X))) C1 C0) as C end.
    eapply covers_impl; [|exact C]. intros F (A & B & D). cbn [flat flat_map fst snd app]. constructor; auto.
Qed.
(** Every value that occurs is covered by what is written. *)
Lemma occurs_covered F top : occ top -> cov F top -> (forall o, In o F -> good F o) -> forall u, occurs H top u -> mcov F u.
Proof.
  intros Ot R G u O. induction O as [|o x c O IH Hx Ic]; [apply cov_mcov; auto|]. apply (occurs_trans _ _ _ _ Ot) in O.
  assert (V : (exists b w, x = OView b w) \/ (forall b w, x <> OView b w)).
  { destruct x; try (right; discriminate). left; eauto. }
  destruct V as [(b & w & ->)|Nv].
  { destruct Ic as [<-|[]]. left. destruct (wf_occ H cfg root WF _ _ O Hx) as (_ & y & Hy & B). exists y. auto. }
  destruct IH as [(y & Hy & B)|(o0 & Io & E)].
  - rewrite Hx in Hy. injection Hy as <-. destruct x; contradiction.
  - destruct E as [E|(Hr & E)]; [injection E as ->; apply cov_mcov, (G _ Io) with (x := x); auto|].
    apply heq_obj in E as [<-|(x1 & x' & Hx1 & Hx' & Ob)]; [apply cov_mcov, (G _ Io) with (x := x); auto|].
    rewrite Hx in Hx1. injection Hx1 as <-. destruct x; cbn [obj_heq] in Ob; try contradiction; try (elim (Nv _ _ eq_refl)).
    destruct Ob as (-> & l' & -> & F2). cbn [children] in Ic.
    assert (Q : exists c', In c' l' /\ heq H c c').
    { clear -F2 Ic. induction F2 as [|a b l l' E F2 IH]; [contradiction|]. destruct Ic as [<-|Ic]; [exists b; split; auto; left; auto|].
      destruct (IH Ic) as (c' & I' & E'). exists c'. split; auto. right; auto. }
    destruct Q as (c' & Ic' & Ec). assert (C' : cov F c') by (apply (G _ Io) with (x := OSeq true l'); auto; discriminate).
    destruct C' as [A|(o1 & I1 & E1)]; [|right; exists o1; split; auto; right; split; auto; eapply heq_trans; [eauto|apply teq_heq; auto]].
    left. destruct c as [| | |b1|z1|b1|s1|o1]; try exact I. apply heq_sym in Ec. apply heq_ref in Ec as Hc. destruct Hc as [o2 ->]. apply heq_sym in Ec.
    apply heq_obj in Ec as [->|(x1 & x2 & H1 & H2 & Ob)]; auto. destruct A as (y & Hy & B). rewrite H2 in Hy. injection Hy as ->.
    exists x1. split; auto. destruct x1; cbn in Ob; try contradiction; cbn; auto.
    all: try (subst; contradiction).
    all: try (destruct Ob as (? & -> & _); contradiction).
    all: try (destruct Ob as (? & ? & -> & _); contradiction).
    all: destruct Ob as (_ & Ob); try destruct Ob as (? & -> & _); subst; contradiction.
Qed.
(** Children of objects other than tuples and views are covered by values of their type. *)
Lemma occurs_covered_kid F top o x c : occ top -> cov F top -> (forall o, In o F -> good F o) -> occurs H top (VRef o) -> nth_error H o = Some x -> In c (children x) ->
  (forall l, x <> OSeq true l) -> (forall b w, x <> OView b w) -> cov F c.
Proof.
  intros Ot R G O Hx Ic Nt Nv. destruct (occurs_covered F top Ot R G _ O) as [(y & Hy & B)|(o0 & Io & E)].
  - rewrite Hx in Hy. injection Hy as <-. destruct x; contradiction.
  - apply meq_heq in E. apply heq_obj in E as [<-|(x1 & x' & Hx1 & Hx' & Ob)]; [apply (G _ Io) with (x := x); auto|].
    rewrite Hx in Hx1. injection Hx1 as <-. destruct x; cbn [obj_heq children] in *; try contradiction; try (elim (Nv _ _ eq_refl)).
    destruct Ob as (-> & _). elim (Nt _ eq_refl).
Qed.
(** An unsupported value of a graph with a description is a view that is held by tuples only, and another
    view, of another type, has the same contents. *)
Theorem describes_supported open key w r o : desc open key root [] w r -> occ (VRef o) -> unsupported o ->
  refs = true /\ root <> VRef o /\
  (forall q x, occ (VRef q) -> nth_error H q = Some x -> In (VRef o) (children x) -> exists l, x = OSeq true l) /\
  exists b v p b' v', nth_error H o = Some (OView b v) /\ nth_error H p = Some (OView b' v') /\ vw_tag v' <> vw_tag v /\
    snd (view_memory (backing_of H b') v') = snd (view_memory (backing_of H b) v).
Proof.
  intros D O U. destruct (proj1 describes_covers _ _ _ _ _ _ D) as (F & G & C & _).
  assert (E : base open [] = []) by (unfold base; destruct refs; auto). rewrite E, app_nil_r in *.
  assert (NH : ~ harmless (VRef o)).
  { intros (y & Hy & B). destruct U as [U|(b & v & U & _)]; rewrite U in Hy; injection Hy as <-; contradiction. }
  (* covered by a value of its type: impossible *)
  assert (NC : ~ cov F (VRef o)).
  { intros [A|(o0 & Io & Eq)]; [auto|]. destruct (G _ Io) as [N _]. apply N. clear N. destruct Eq as [Eq|(Hr & Eq & T)]; [injection Eq as <-; auto|].
    apply heq_obj in Eq as [<-|(x & x' & Hx & Hx' & Ob)]; auto.
    destruct U as [U|(b & v & U & Tg & Fe)]; rewrite U in Hx; injection Hx as <-; cbn [obj_heq] in Ob.
    + destruct Ob as [-> ->]. left; auto.
    + destruct Ob as (b' & w' & -> & _). right. exists b', w'. split; auto. split; auto. cbn [type_of] in T. rewrite U, Hx' in T. congruence. }
  destruct (occurs_covered F root (occ_root _ _) C G _ O) as [A|(o0 & Io & Eq)]; [contradiction|].
  destruct (G _ Io) as [N _]. destruct Eq as [Eq|(Hr & Eq)]; [injection Eq as <-; contradiction|]. split; auto.
  split. { intros ->. contradiction. }
  split.
  { intros q x Oq Hq Iq.
    assert (K : (forall l, x <> OSeq true l) -> (forall b w, x <> OView b w) -> False).
    { intros Nt Nv. apply NC. eapply (occurs_covered_kid F root q x); eauto. constructor. }
    destruct x; try (exfalso; apply K; discriminate).
    - destruct Iq as [Iq|[]]. injection Iq as ->. elim NH. destruct (wf_occ H cfg root WF _ _ Oq Hq) as (_ & y & Hy & B). exists y. auto.
    - destruct tuple; [eauto|exfalso; apply K; discriminate]. }
  apply heq_obj in Eq as [<-|(x & x' & Hx & Hx' & Ob)]; [contradiction|].
  destruct U as [U|(b & v & U & Tg & Fe)]; rewrite U in Hx; injection Hx as <-; cbn [obj_heq] in Ob.
  - destruct Ob as [-> ->]. elim N. left; auto.
  - destruct Ob as (b' & w' & -> & M & _). exists b, v, o0, b', w'. split; auto. split; auto. split; auto. intros T. apply N. right. exists b', w'. split; auto. split; auto. congruence.
Qed.


(** * Errors on a cycle *)
Lemma same_refl o : same_cycle H o o.
Proof. split; constructor. Qed.
Lemma same_trans o p q : same_cycle H o p -> same_cycle H p q -> same_cycle H o q.
Proof. intros [A B] [C D]. split; eapply occurs_trans; eauto. Qed.
Lemma same_sym o p : same_cycle H o p -> same_cycle H p o.
Proof. intros [A B]. split; auto. Qed.
Definition hashable (v : val) : Prop := exists n k, hash H n v = Some k.
Lemma hashable_kids o x c : hashable (VRef o) -> nth_error H o = Some x -> In c (children x) -> hashable c \/ exists b w, x = OView b w.
Proof.
  intros (n & k & E) Hx Ic. destruct n as [|n]; [discriminate|]. apply hash_ref_inv in E as (y & Hy & Sh). rewrite Hx in Hy. injection Hy as <-.
  destruct x; try contradiction; eauto. 1,2: destruct k; cbn in Sh; try contradiction; try discriminate; decompose [ex and] Sh; discriminate.
  all: try (destruct k; cbn in Sh; try contradiction; try discriminate; decompose [ex and] Sh; discriminate).
  destruct k; cbn in Sh; try contradiction; try discriminate; try (decompose [ex and] Sh; discriminate).
  - injection Sh as -> ->. contradiction.
  - destruct Sh as (a & l0 & E & E1 & E2). injection E as -> ->. destruct Ic as [<-|Ic]; [left; exists n, k1; auto|].
    left. clear -E2 Ic. revert k2 E2. induction l0 as [|b l IH]; [contradiction|]. intros k2 E2. rewrite hashes_cons in E2.
    destruct (hash H n b) eqn:Eb; [|discriminate]. destruct (hashes H n l) eqn:El; [|discriminate].
    destruct Ic as [<-|Ic]; [exists n, h; auto|]. apply (IH Ic _ eq_refl).
Qed.
Lemma hashable_occurs v u : occ v -> hashable v -> occurs H v u -> hashable u \/ harmless u.
Proof.
  intros Ov Hv O. induction O as [|o x c O IH Hx Ic]; auto. destruct IH as [A|(y & Hy & B)].
  - destruct (hashable_kids _ _ _ A Hx Ic) as [?|(b & w & ->)]; auto. right. destruct Ic as [<-|[]].
    destruct (wf_occ H cfg root WF _ _ (occurs_trans _ _ _ _ Ov O) Hx) as (_ & y & Hy & B). exists y. auto.
  - rewrite Hx in Hy. injection Hy as <-. destruct x; contradiction.
Qed.
Lemma error_unhashable o n m s c : nth_error H o = Some (OError n m s c) -> ~ hashable (VRef o) /\ ~ harmless (VRef o).
Proof.
  intros Ho. split.
  - intros ([|n0] & k & E); [discriminate|]. apply hash_ref_inv in E as (y & Hy & Sh). rewrite Ho in Hy. injection Hy as <-.
    destruct k; cbn in Sh; try contradiction; try discriminate; decompose [ex and] Sh; discriminate.
  - intros (y & Hy & B). rewrite Ho in Hy. injection Hy as <-. contradiction.
Qed.
Lemma heq_hashable a b : heq H a b -> a = b \/ (hashable a /\ hashable b).
Proof. intros [->|(n & k & A & B)]; auto. right. split; exists n, k; auto. Qed.

Section Cycle.
Variable e0 : nat.
Hypothesis O0 : occ (VRef e0).
Hypothesis C0 : cyclic_error H e0.
Hypothesis Hrefs : refs = true.
Hypothesis Fc : f_circular feat = false.
Notation scc := (same_cycle H e0).
Hypothesis Entry : forall p, scc p -> root = VRef p \/ (exists q x, occ (VRef q) /\ nth_error H q = Some x /\ In (VRef p) (children x) /\ ~ scc q) ->
  exists n m s c, nth_error H p = Some (OError n m s c).

Lemma scc_occ p : scc p -> occ (VRef p).
Proof. intros [A _]. eapply occurs_trans; eauto. Qed.
Lemma scc_heq p v : scc p -> heq H (VRef p) v -> v = VRef p.
Proof.
  intros Sp E. apply heq_hashable in E as [<-|[A _]]; auto. destruct C0 as (n & m & s & c & Ho & _). destruct (error_unhashable _ _ _ _ _ Ho) as [N1 N2].
  destruct (hashable_occurs (VRef p) (VRef e0) (scc_occ _ Sp) A (proj2 Sp)); contradiction.
Qed.
Lemma scc_heq' p v : occ v -> scc p -> heq H v (VRef p) -> v = VRef p.
Proof. intros _ Sp E. apply scc_heq; auto. apply heq_sym; auto. Qed.
(* another object of the cycle follows *)
Lemma scc_next p : scc p -> exists x q, nth_error H p = Some x /\ In (VRef q) (children x) /\ scc q.
Proof.
  intros Sp. assert (X : forall v u, occurs H v u -> v = u \/ exists o x c, v = VRef o /\ nth_error H o = Some x /\ In c (children x) /\ occurs H c u).
  { intros v u O. induction O as [|o x c O IH Hx Ic]; auto. right. destruct IH as [->|(o1 & x1 & c1 & -> & H1 & I1 & O1)].
    - exists o, x, c. split; [reflexivity|]. split; [exact Hx|]. split; [exact Ic|constructor].
    - exists o1, x1, c1. split; [reflexivity|]. split; [exact H1|]. split; [exact I1|]. econstructor; eauto. }
  assert (Y : forall o x c, scc o -> nth_error H o = Some x -> In c (children x) -> occurs H c (VRef e0) -> exists q, c = VRef q /\ scc q).
  { intros o x c [A _] Hx Ic O. destruct (X _ _ O) as [->|(q & xq & cq & -> & _)].
    - exists e0. split; auto. apply same_refl.
    - exists q. split; auto. split; auto. eapply occ_child; eauto. }
  destruct (X _ _ (proj2 Sp)) as [E|(o & x & c & E & Hx & Ic & O)].
  - injection E as ->. destruct C0 as (n & m & s & c & Ho & Nc & Oc). exists (OError n m s c).
    assert (Ic : In c (children (OError n m s c))) by (destruct c; try congruence; left; auto).
    destruct (Y e0 _ c (same_refl _) Ho Ic Oc) as (q & -> & Sq). exists q. auto.
  - injection E as <-. destruct (Y p x c Sp Hx Ic O) as (q & -> & Sq). exists x, q. auto.
Qed.

(** an error of the cycle, reached before any other object of the cycle, has no description *)
Lemma scc_error open p c r w r' n m s : scc p -> nth_error H p = Some (OError n m s c) -> c <> VNone -> (forall q, In q r -> ~ scc q) ->
  ~ desc (p :: open) false c (r ++ [p]) w r'.
Proof.
  intros Sp Hp Nc Dj D. destruct (proj1 describes_covers _ _ _ _ _ _ D) as (F & G & C & _ & _ & Fr & _).
  set (B := F ++ base (p :: open) (r ++ [p])) in *.
  assert (B1 : forall q, scc q -> In q B -> In q F /\ q <> p).
  { intros q Sq Iq. unfold B in Iq. apply in_app_iff in Iq as [Iq|Iq].
    - split; auto. intros ->. apply (Fr _ Iq Hrefs), in_app_iff. right; left; auto.
    - apply base_in in Iq as (_ & Iq & No). apply in_app_iff in Iq as [Iq|[<-|[]]]; [elim (Dj _ Iq); auto|elim No; left; auto]. }
  (* the members of the cycle in F lead to further ones, up to p *)
  assert (Step : forall q x c', In q F -> scc q -> nth_error H q = Some x -> In c' (children x) -> forall q', c' = VRef q' -> scc q' -> In q' F /\ q' <> p).
  { intros q x c' Iq Sq Hx Ic q' -> Sq'. destruct (G _ Iq) as (_ & Gc).
    assert (Nv : forall b w0, x <> OView b w0).
    { intros b w0 ->. destruct Ic as [Ib|[]]. injection Ib as <-. destruct (wf_occ H cfg root WF _ _ (scc_occ _ Sq) Hx) as (_ & y & Hy & Bl).
      destruct (scc_next _ Sq') as (y' & q2 & Hy' & I2 & _). rewrite Hy in Hy'. injection Hy' as <-. destruct y; contradiction. }
    destruct (Gc _ _ Hx Nv Ic) as [(y & Hy & Bl)|(o & Io & E)].
    - destruct (scc_next _ Sq') as (y' & q2 & Hy' & I2 & _). rewrite Hy in Hy'. injection Hy' as <-. destruct y; contradiction.
    - apply teq_heq, (scc_heq _ _ Sq') in E. injection E as ->. apply B1; auto. }
  assert (Walk : forall v u, occurs H v u -> forall q, v = VRef q -> In q F -> scc q -> forall t, u = VRef t -> scc t -> In t F).
  { intros v u O. induction O as [|o x c' O IH Hx Ic]; intros q -> Iq Sq t Et St; [congruence|].
    assert (So : scc o). { split; [eapply occurs_trans; [exact (proj1 Sq)|exact O]|]. eapply occurs_trans; [|exact (proj2 St)]. subst c'. eapply occ_child; [constructor|exact Hx|exact Ic]. }
    eapply (Step o x c' (IH q eq_refl Iq Sq o eq_refl So) So Hx Ic); eauto. }
  (* the cause reaches p *)
  assert (Oc : exists q, c = VRef q /\ scc q /\ occurs H c (VRef p)).
  { destruct (scc_next _ Sp) as (y & q & Hy & Iq & Sq). rewrite Hp in Hy. injection Hy as <-. exists q. assert (c = VRef q) as -> by (destruct c; try contradiction; destruct Iq as [E|[]]; auto).
    split; auto. split; auto. apply (occurs_trans _ _ (VRef e0)); [exact (proj2 Sq)|exact (proj1 Sp)]. }
  destruct Oc as (q & -> & Sq & Oc). assert (Iq : In q F /\ q <> p).
  { destruct C as [(y & Hy & Bl)|(o & Io & E)].
    - destruct (scc_next _ Sq) as (y' & q2 & Hy' & I2 & _). rewrite Hy in Hy'. injection Hy' as <-. destruct y; contradiction.
    - apply teq_heq, (scc_heq _ _ Sq) in E. injection E as ->. apply B1; auto. }
  pose proof (Walk _ _ Oc q eq_refl (proj1 Iq) Sq p eq_refl Sp) as Ip. apply (Fr _ Ip Hrefs), in_app_iff. right; left; auto.
Qed.

(** nothing on the cycle is described *)
Definition outside (v : val) : Prop :=
  forall p, v = VRef p -> scc p -> root = VRef p \/ (exists q x, occ (VRef q) /\ nth_error H q = Some x /\ In (VRef p) (children x) /\ ~ scc q).
Definition clear_of (r : list nat) : Prop := forall q, In q r -> ~ scc q.
Lemma clear_snoc r o : clear_of r -> ~ scc o -> clear_of (r ++ [o]).
Proof. intros A B q Iq. apply in_app_iff in Iq as [Iq|[<-|[]]]; auto. Qed.
Lemma outside_kid q x c : occ (VRef q) -> nth_error H q = Some x -> In c (children x) -> ~ scc q -> outside c.
Proof. intros A B C D p -> _. right. exists q, x. auto. Qed.
Lemma outside_kids q x l : occ (VRef q) -> nth_error H q = Some x -> incl l (children x) -> ~ scc q -> Forall outside l.
Proof. intros A B C D. apply Forall_forall. intros c Ic. eapply outside_kid; eauto. Qed.
Lemma leaf_scc o x : nth_error H o = Some x -> children x = [] -> ~ scc o.
Proof. intros Hx E So. destruct (scc_next _ So) as (y & q & Hy & Iq & _). rewrite Hx in Hy. injection Hy as <-. rewrite E in Iq. contradiction. Qed.
Lemma entry_scc o x : outside (VRef o) -> nth_error H o = Some x -> (forall n m s c, x <> OError n m s c) -> ~ scc o.
Proof. intros Ou Hx Ne So. destruct (Entry o So (Ou _ eq_refl So)) as (n & m & s & c & E). apply (Ne n m s c). congruence. Qed.

Lemma describes_clear :
  (forall open key v r w r', desc open key v r w r' -> occ v -> outside v -> clear_of r -> clear_of r') /\
  (forall open key v r w r', wrt open key v r w r' -> occ v -> outside v -> clear_of r -> clear_of r') /\
  (forall open l r ws r', vals_of open l r ws r' -> Forall occ l -> Forall outside l -> clear_of r -> clear_of r') /\
  (forall open key l r ps r', pairs_of open key l r ps r' -> Forall occ (flat l) -> Forall outside (flat l) -> clear_of r -> clear_of r').
Proof.
  apply describes_mutind; intros; auto.
  all: try (match goal with X : nth_error H ?o = Some ?x, C : clear_of ?r |- clear_of (?r ++ [?o]) =>
    apply clear_snoc; [exact C|apply (leaf_scc o x X eq_refl)] end; fail).
  all: try (match goal with X : nth_error H ?o = Some ?x, Oo : occ (VRef ?o), Ou : outside (VRef ?o), IH : Forall occ ?l -> Forall outside ?l -> _ |- clear_of _ =>
    assert (~ scc o) by (apply (entry_scc o x Ou X); discriminate);
    apply IH; [apply (occ_children H root _ _ _ Oo X)|apply (outside_kids _ _ _ Oo X)|apply clear_snoc; auto]; auto;
    first [apply incl_refl|apply own_in|apply named_in] end; fail).
  - (* dedup *) match goal with X : rep ?v ?v0, IH : occ ?v0 -> _ |- _ => pose proof (rep_heq _ _ X) as Hq; apply IH; auto end.
    + eapply rep_occ; eauto.
    + intros p -> Sp. apply heq_sym, (scc_heq _ _ Sp) in Hq. subst v. auto.
  - (* error with a cause *)
    match goal with X : nth_error H o = Some ?x, Oo : occ (VRef o), D : desc _ false c _ _ _ |- _ =>
      assert (Ns : ~ scc o) by (intros So; rewrite Fc in D; eapply (scc_error _ _ _ _ _ _ _ _ _ So X); eauto);
      assert (Ic : In c (children x)) by (destruct c; try congruence; left; auto);
      pose proof (occ_child_obj H root _ _ _ Oo X Ic); pose proof (outside_kid _ _ _ Oo X Ic Ns) end.
    match goal with IH : occ c -> _ |- _ => apply IH; auto; apply clear_snoc; auto end.
  - (* dense *)
    match goal with X : nth_error H ?o = Some ?x, Oo : occ (VRef ?o), Ou : outside (VRef ?o), IH2 : Forall occ (flat (named_items _)) -> _, IH1 : Forall occ (elements _) -> _ |- _ =>
      assert (Ns : ~ scc o) by (apply (entry_scc o x Ou X); discriminate);
      apply IH2; [apply (occ_children H root _ _ _ Oo X), named_in|apply (outside_kids _ _ _ Oo X); auto; apply named_in|];
      apply IH1; [apply (occ_children H root _ _ _ Oo X)|apply (outside_kids _ _ _ Oo X)|apply clear_snoc]; auto; apply incl_appl, incl_refl end.
  - (* bytes *)
    match goal with X : refs = true -> _, Y : nth_error H o = Some _ |- _ => rewrite (X Hrefs); apply clear_snoc; auto; apply (leaf_scc o _ Y eq_refl) end.
  - (* view *)
    match goal with X : nth_error H ?o = Some (OView ?b ?w0), Oo : occ (VRef ?o), Ou : outside (VRef ?o), IH : occ (VRef ?b) -> _ |- _ =>
      assert (Ns : ~ scc o) by (apply (entry_scc o _ Ou X); discriminate); apply clear_snoc; auto; apply IH; auto;
      [apply (occ_child_obj H root _ _ _ Oo X)|apply (outside_kid _ _ _ Oo X); auto]; left; auto end.
  - (* values *)
    match goal with A : Forall occ (_ :: _), B : Forall outside (_ :: _) |- _ => inversion A; inversion B; subst; auto end.
  - (* pairs *)
    cbn [flat flat_map fst snd app] in *.
    match goal with A : Forall occ (_ :: _ :: _), B : Forall outside (_ :: _ :: _) |- _ =>
      inversion A as [|? ? A1 A2]; inversion A2; inversion B as [|? ? B1 B2]; inversion B2; subst; auto end.
Qed.
(** The graph has no description. *)
Theorem cycle_undescribed open key w r : ~ desc open key root [] w r.
Proof.
  intros D. assert (Cl : clear_of r).
  { apply (proj1 describes_clear _ _ _ _ _ _ D); [constructor|intros p E _; auto|intros q []]. }
  destruct (proj1 describes_covers _ _ _ _ _ _ D) as (F & G & C & _ & _ & _ & Fi).
  assert (E : base open [] = []) by (unfold base; destruct refs; auto). rewrite E, app_nil_r in *.
  destruct C0 as (n & m & s & c & Ho & Nc & Oc). destruct (error_unhashable _ _ _ _ _ Ho) as [N1 N2].
  destruct (occurs_covered F root (occ_root _ _) C G _ O0) as [A|(o & Io & Eq)]; [contradiction|].
  apply meq_heq, (scc_heq _ _ (same_refl _)) in Eq. injection Eq as ->. apply (Cl e0); [|apply same_refl].
  apply (Fi Hrefs _ _ Io Ho); [cbn; destruct c; congruence|discriminate].
Qed.
End Cycle.
End Cover.
