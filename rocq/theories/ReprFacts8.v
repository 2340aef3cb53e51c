(** Facts about ModelReprText: what other threads are doing does not matter, and when nothing can be raised. *)
From Coq Require Import Ascii String List NArith ZArith Bool Arith Lia.
From Verif Require Import Base Dict SpecNumber ModelTags ModelArray ModelValue ModelObject ModelMap ModelHeap ModelEncode ModelEq ModelReprText
  ArrayFacts ArrayFacts2 ArrayFacts3 ReprFacts.
Import ListNotations.
Open Scope list_scope.
Open Scope nat_scope.

(** * Threads *)
Section Alike.
Variable t : nat.
Definition same_keys (s s' : kset) : Prop := forall o, kmem (o, t) s = kmem (o, t) s'.
Definition alike {A} (m : M A) : Prop := forall s s', same_keys s s' -> fst (m s) = fst (m s') /\ same_keys (snd (m s)) (snd (m s')).
Lemma alike_ret {A} (x : A) : alike (ret x). Proof. intros s s' E. split; [reflexivity|exact E]. Qed.
Lemma alike_raise {A} e : alike (@raise A e). Proof. intros s s' E. split; [reflexivity|exact E]. Qed.
Lemma alike_result {A} (r : result A) : alike (from_result r). Proof. intros s s' E. split; [reflexivity|exact E]. Qed.
Lemma alike_bind {A B} (m : M A) (f : A -> M B) : alike m -> (forall x, alike (f x)) -> alike (andThen m f).
Proof.
  intros K F s s' E. unfold andThen. destruct (K s s' E) as [E1 E2]. destruct (m s) as [[x|e] s1], (m s') as [[x'|e'] s1']; cbn [fst snd] in *; try discriminate.
  - injection E1 as <-. apply F, E2.
  - injection E1 as <-. split; [reflexivity|exact E2].
Qed.
Lemma alike_each {A B} (f : A -> M B) l : (forall x, alike (f x)) -> alike (each f l).
Proof. intros F. induction l as [|x l IH]; cbn [each]; [apply alike_ret|]. apply alike_bind; [apply F|]. intros y. apply alike_bind; [exact IH|]. intros r. apply alike_ret. Qed.
Lemma alike_islice {A} (l : list A) n : alike (islice l n).
Proof. unfold islice. destruct (n <? 0)%Z; [apply alike_raise|apply alike_ret]. Qed.
End Alike.
Ltac like :=
  repeat first
    [ apply alike_ret | apply alike_raise | apply alike_result | apply alike_islice
    | apply alike_each; intros | apply alike_bind; [|intros]
    | match goal with |- alike _ (if ?b then _ else _) => destruct b | |- alike _ (match ?b with _ => _ end) => destruct b end
    | assumption ].

Lemma kmem_kadd k k' s : kmem k (kadd k' s) = key_eqb k k' || kmem k s.
Proof.
  unfold kadd. destruct (kmem k' s) eqn:E; [|reflexivity]. destruct (key_eqb k k') eqn:Q; [|reflexivity].
  unfold key_eqb in Q. apply andb_prop in Q as [Q1 Q2]. apply Nat.eqb_eq in Q1, Q2. destruct k, k'; cbn [fst snd] in *; subst. exact E.
Qed.
Section Running.
Variable H : heap.
Variable R : rsettings.
Variable t : nat.
Variable isidentifier : list N -> bool.
Variable isspace : N -> bool.
Variable whole : val -> bool.
Variable is_enum : nat -> bool.
Notation method := (repr_object_at H R isidentifier isspace is_enum).
Notation repr1 := (repr1 H R t isidentifier isspace whole is_enum).
Notation alike := (alike t).
Lemma alike_props piece props n : (forall p, alike (piece p)) -> alike (property_pieces R piece props n).
Proof. intros K. unfold property_pieces. like; apply K. Qed.
Lemma alike_object r level name n o : (forall v, alike (r v)) -> alike (repr_object R isidentifier isspace r level name n o).
Proof.
  intros K. unfold repr_object, joined. like; try (apply alike_props; intros; unfold kwarg, entry; like; apply K);
  unfold entry; like; apply K.
Qed.
Lemma method_alike r level o : (forall v, alike (r v)) -> alike (method r level o).
Proof.
  intros K. unfold repr_object_at. destruct (nth_error H o) as [[]|]; try apply alike_ret.
  - unfold repr_map, joined. like; apply K.
  - unfold repr_set, repr_iterable, joined. like; apply K.
  - apply alike_object, K.
  - unfold repr_array, joined. destruct (_ =? 0)%Z; [apply alike_ret|]. destruct (jo_arr o0) eqn:E; [|apply alike_object, K].
    like; try (apply alike_props; intros; unfold kwarg, entry; like; apply K); apply K.
  - unfold repr_error, joined, repr_name. like; apply K.
  - unfold repr_iterable, joined. destruct tuple; like; apply K.
Qed.
Lemma repr1_alike level : forall v, alike (repr1 level v).
Proof.
  induction level as [|l IH]; intros v; cbn [ModelReprText.repr1]; [apply alike_ret|]. destruct v as [| | | | | | |o]; try apply alike_ret.
  intros s s' E. rewrite <- (E o). destruct (kmem (o, t) s) eqn:E1; [split; [reflexivity|exact E]|].
  assert (same_keys t (kadd (o, t) s) (kadd (o, t) s')) as E2 by (intros c; rewrite !kmem_kadd, (E c); reflexivity).
  pose proof (method_alike (repr1 l) (S l) o IH _ _ E2) as [E3 _].
  pose proof (method_keeps H R isidentifier isspace is_enum (repr1 l) (S l) o (repr1_keeps _ _ _ _ _ _ _ l) (kadd (o, t) s)) as K.
  pose proof (method_keeps H R isidentifier isspace is_enum (repr1 l) (S l) o (repr1_keeps _ _ _ _ _ _ _ l) (kadd (o, t) s')) as K'.
  destruct (method _ _ _ _) as [x s1]. destruct (method _ _ _ _) as [x' s1']. cbn [fst snd] in *. subst. split; [reflexivity|].
  rewrite !kdel_kadd; [exact E| |exact E1]. rewrite <- (E o). exact E1.
Qed.
End Running.

(** * Nothing is raised *)
Definition gives {A} (P : A -> Prop) (m : M A) : Prop := forall s, exists x, fst (m s) = Ok x /\ P x.
Definition any {A} : A -> Prop := fun _ => True.
Lemma gives_ret {A} (P : A -> Prop) x : P x -> gives P (ret x). Proof. intros p s. exists x. auto. Qed.
Lemma gives_result {A} (P : A -> Prop) r x : r = Ok x -> P x -> gives P (from_result r). Proof. intros -> p s. exists x. auto. Qed.
Lemma gives_bind {A B} (P : A -> Prop) (Q : B -> Prop) (m : M A) (f : A -> M B) : gives P m -> (forall x, P x -> gives Q (f x)) -> gives Q (andThen m f).
Proof. intros G F s. unfold andThen. destruct (G s) as [x [E p]]. destruct (m s) as [r s']. cbn [fst] in E. subst r. apply F, p. Qed.
Lemma gives_each {A B} (P : B -> Prop) (f : A -> M B) l : (forall x, gives P (f x)) -> gives (fun r => length r = length l /\ Forall P r) (each f l).
Proof.
  intros F. induction l as [|x l IH]; cbn [each]; [apply gives_ret; split; [reflexivity|constructor]|]. apply (gives_bind P); [apply F|]. intros y Py. apply (gives_bind _ _ _ _ IH). intros r [L Pr].
  apply gives_ret. split; [cbn [length]; congruence|constructor; assumption].
Qed.
Lemma gives_islice {A} (l : list A) n : (0 <= n)%Z -> gives (fun r => r = firstn (Z.to_nat n) l) (islice l n).
Proof. intros N. unfold islice. destruct (n <? 0)%Z eqn:E; [lia|]. apply gives_ret. reflexivity. Qed.
Lemma gives_any {A} (P : A -> Prop) m : gives P m -> gives any m.
Proof. intros G s. destruct (G s) as [x [E _]]. exists x. split; [exact E|exact Logic.I]. Qed.

Section Raising.
Variable H : heap.
Variable R : rsettings.
Variable t : nat.
Variable isidentifier : list N -> bool.
Variable isspace : N -> bool.
Variable whole : val -> bool.
Variable is_enum : nat -> bool.
Notation method := (repr_object_at H R isidentifier isspace is_enum).
Notation repr1 := (repr1 H R t isidentifier isspace whole is_enum).
Hypothesis INDENT : match r_indent R with None => True | Some n => (0 <= n)%Z end.
Hypothesis LIMITS : Forall (fun n => (0 <= n)%Z) [r_maxjsobject R; r_maxjsarray R; r_maxdict R; r_maxset R; r_maxlist R; r_maxtuple R].
Hypothesis FILL : r_fill R <> [].
Hypothesis AF : forall o x, nth_error H o = Some (OObject x) \/ nth_error H o = Some (OArray x) -> arr_ok (jo_arr x).
(** A text that starts with something *)
Definition starts (p : list tok) : Prop := match p with [] => False | TFill [] :: _ => False | _ => True end.
Lemma joined_any level ps : gives any (joined R level ps).
Proof.
  unfold joined, join. destruct (r_indent R) as [n|]; [|eapply gives_result; [reflexivity|exact Logic.I]].
  destruct ps; [eapply gives_result; [reflexivity|exact Logic.I]|]. destruct (n <? 0)%Z eqn:E; [lia|]. eapply gives_result; [reflexivity|exact Logic.I].
Qed.
Lemma starts_app p q : starts p -> starts (p ++ q).
Proof. destruct p as [|[] p]; auto; intros []. Qed.
Lemma comma_starts ps : ps <> [] -> Forall starts ps -> starts (comma_join ps).
Proof. intros NE F. destruct F as [|p ps Sp F]; [contradiction|]. destruct ps; cbn [comma_join]; [exact Sp|apply starts_app, Sp]. Qed.
Lemma joined_starts level ps : ps <> [] -> Forall starts ps -> gives starts (joined R level ps).
Proof.
  intros NE F. unfold joined, join. destruct (r_indent R) as [n|]; [|eapply gives_result; [reflexivity|apply comma_starts; assumption]].
  destruct ps; [contradiction|]. destruct (n <? 0)%Z eqn:E; [lia|]. eapply gives_result; [reflexivity|exact Logic.I].
Qed.
Lemma starts_spaces p : starts p -> exists b, starts_with_space isspace p = Ok b.
Proof. destruct p as [|[] p]; cbn [starts starts_with_space]; try contradiction; eauto. destruct f; [contradiction|eauto]. Qed.
Lemma starts_fill : starts (hd [] [fill R]).
Proof. cbn. destruct (r_fill R); [contradiction|exact Logic.I]. Qed.
Lemma props_gives (P : list tok -> Prop) piece props n : P (fill R) -> (forall p, gives P (piece p)) -> gives (fun ps => Forall P ps /\ (props <> [] -> ps <> [])) (property_pieces R piece props n).
Proof.
  intros PF G. unfold property_pieces. eapply gives_bind; [apply gives_islice; lia|]. intros sh ->. eapply gives_bind; [apply (gives_each P); exact G|]. intros ps [L F]. apply gives_ret. split.
  - apply Forall_app. split; [exact F|]. destruct (_ <? _)%Z; constructor; auto.
  - intros NE E. apply app_eq_nil in E as [-> E]. destruct (n <? zlen props)%Z eqn:Q; [discriminate|]. cbn [length] in L. destruct props as [|p props]; [contradiction|].
    rewrite firstn_length in L. unfold zlen in Q. cbn [length] in *. lia.
Qed.
Section Below.
Variable r : val -> M (list tok).
Variable level : nat.
Hypothesis G : forall v, gives any (r v).
Lemma kwarg_gives p : gives starts (kwarg r p).
Proof. unfold kwarg. eapply gives_bind; [apply G|]. intros x _. apply gives_ret. exact Logic.I. Qed.
Lemma entry_gives k v : gives any (entry r k v).
Proof. unfold entry. eapply gives_bind; [apply G|]. intros x _. apply gives_ret. exact Logic.I. Qed.
Lemma object_gives name n o : (0 <= n)%Z -> arr_ok (jo_arr o) -> gives any (repr_object R isidentifier isspace r level name n o).
Proof.
  intros N OK. unfold repr_object. destruct (_ =? 0)%Z; [apply gives_ret; exact Logic.I|]. apply (gives_bind any).
  { destruct (0 <? _)%Z; [|apply gives_ret; exact Logic.I]. eapply gives_bind; [apply gives_islice, N|]. intros u _. destruct (view_items_spec _ OK) as [a' [E _]]. rewrite E. cbn [fst].
    eapply gives_bind; [eapply gives_result; [reflexivity|exact (Logic.I : any _)]|]. intros items _. eapply gives_bind; [apply gives_islice, N|]. intros sh _.
    eapply gives_bind; [apply (gives_each any); intros p; apply entry_gives|]. intros ps _. apply gives_ret. exact Logic.I. }
  intros aps _. destruct (match jo_props o with [] => false | _ => _ end) eqn:EP.
  - assert (jo_props o <> []) as NE by (intros Q; rewrite Q in EP; discriminate).
    eapply gives_bind; [apply (props_gives starts); [exact starts_fill|exact kwarg_gives]|]. intros kps [F NK]. eapply gives_bind; [apply joined_starts; [apply NK, NE|exact F]|]. intros kr Sk.
    destruct aps; [apply gives_ret; exact Logic.I|]. eapply gives_bind; [apply joined_any|]. intros ar _. destruct (starts_spaces _ Sk) as [b ->].
    eapply gives_bind; [eapply gives_result; [reflexivity|exact (Logic.I : any _)]|]. intros sp _. apply gives_ret. exact Logic.I.
  - apply (gives_bind any).
    { destruct (jo_props o); [apply gives_ret; exact Logic.I|]. eapply gives_any. apply (props_gives any); [exact Logic.I|]. intros q. apply entry_gives. }
    intros pps _. eapply gives_bind; [apply joined_any|]. intros pr _. apply gives_ret. exact Logic.I.
Qed.
Lemma array_gives o : arr_ok (jo_arr o) -> gives any (repr_array R isidentifier isspace r level o).
Proof.
  intros OK. assert (0 <= r_maxjsarray R)%Z as N by (rewrite Forall_forall in LIMITS; apply LIMITS; cbn; auto).
  unfold repr_array. destruct (_ =? 0)%Z; [apply gives_ret; exact Logic.I|]. destruct (jo_arr o) as [d|sp] eqn:EA; [|apply object_gives; [exact N|rewrite EA; exact OK]].
  apply (gives_bind any).
  { destruct (0 <? _)%Z; [|apply gives_ret; exact Logic.I]. eapply gives_bind; [apply gives_islice, N|]. intros sh _.
    eapply gives_bind; [apply (gives_each any); intros p; apply G|]. intros ps _. apply gives_ret. exact Logic.I. }
  intros aps _. destruct (match jo_props o with [] => false | _ => _ end) eqn:EP.
  - assert (jo_props o <> []) as NE by (intros Q; rewrite Q in EP; discriminate).
    eapply gives_bind; [apply (props_gives starts); [exact starts_fill|exact kwarg_gives]|]. intros kps [F NK]. eapply gives_bind; [apply joined_starts; [apply NK, NE|exact F]|]. intros kr Sk.
    destruct aps; [apply gives_ret; exact Logic.I|]. eapply gives_bind; [apply joined_any|]. intros ar _. destruct (starts_spaces _ Sk) as [b ->].
    eapply gives_bind; [eapply gives_result; [reflexivity|exact (Logic.I : any _)]|]. intros sp _. apply gives_ret. exact Logic.I.
  - apply (gives_bind any).
    { destruct (jo_props o); [apply gives_ret; exact Logic.I|]. eapply gives_any. apply (props_gives any); [exact Logic.I|]. intros q. apply entry_gives. }
    intros pps _. eapply gives_bind; [apply joined_any|]. intros pr _. destruct aps; [apply gives_ret; exact Logic.I|].
    eapply gives_bind; [apply joined_any|]. intros ar _. destruct pps; apply gives_ret; exact Logic.I.
Qed.
Lemma iterable_gives l left right n trail : (0 <= n)%Z -> gives any (repr_iterable R r level l left right n trail).
Proof.
  intros N. unfold repr_iterable. eapply gives_bind; [apply gives_islice, N|]. intros sh _. eapply gives_bind; [apply (gives_each any); intros p; apply G|]. intros ps _.
  eapply gives_bind; [apply joined_any|]. intros s _. apply gives_ret. exact Logic.I.
Qed.
Lemma method_gives o : gives any (method r level o).
Proof.
  assert (forall n, In n [r_maxjsobject R; r_maxjsarray R; r_maxdict R; r_maxset R; r_maxlist R; r_maxtuple R] -> (0 <= n)%Z) as L by (rewrite Forall_forall in LIMITS; exact LIMITS).
  unfold repr_object_at. destruct (nth_error H o) as [x|] eqn:E; [|apply gives_ret; exact Logic.I]. destruct x; try (apply gives_ret; exact Logic.I).
  - unfold repr_map. destruct (_ =? 0)%Z; [apply gives_ret; exact Logic.I|]. eapply gives_bind; [apply gives_islice, L; cbn; auto|]. intros sh _.
    eapply gives_bind.
    { apply (gives_each any). intros p. eapply gives_bind; [apply G|]. intros k _. eapply gives_bind; [apply G|]. intros v _. apply gives_ret. exact Logic.I. }
    intros ps _. eapply gives_bind; [apply joined_any|]. intros s _. apply gives_ret. exact Logic.I.
  - unfold repr_set. destruct m; [apply gives_ret; exact Logic.I|]. apply iterable_gives, L. cbn. auto.
  - apply object_gives; [apply L; cbn; auto|]. eapply AF. eauto.
  - apply array_gives. eapply AF. eauto.
  - unfold repr_error, repr_name. eapply gives_bind; [apply G|]. intros a _. apply (gives_bind any).
    { destruct (listN_eqb _ _); [apply gives_ret; exact Logic.I|]. apply (gives_bind any); [|intros x _; apply gives_ret; exact Logic.I].
      destruct (is_enum o); [|apply G]. destruct level as [|[|]]; apply gives_ret; exact Logic.I. }
    intros b _. apply (gives_bind any).
    { destruct stack; [|apply gives_ret; exact Logic.I]. eapply gives_bind; [apply G|]. intros x _. apply gives_ret. exact Logic.I. }
    intros c _. apply (gives_bind any).
    { destruct cause; try (apply gives_ret; exact Logic.I); (eapply gives_bind; [apply G|]; intros x _; apply gives_ret; exact Logic.I). }
    intros d _. eapply gives_bind; [apply joined_any|]. intros s _. apply gives_ret. exact Logic.I.
  - destruct tuple; apply iterable_gives, L; cbn; auto 10.
Qed.
End Below.
Lemma repr1_gives level : forall v, gives any (repr1 level v).
Proof.
  induction level as [|l IH]; intros v; cbn [ModelReprText.repr1]; [apply gives_ret; exact Logic.I|]. destruct v as [| | | | | | |o]; try (apply gives_ret; exact Logic.I).
  intros s. destruct (kmem (o, t) s); [exists (fill R); split; [reflexivity|exact Logic.I]|]. destruct (method_gives (repr1 l) (S l) IH o (kadd (o, t) s)) as [x [E _]].
  destruct (method _ _ _ _) as [r s']. exists x. split; [exact E|exact Logic.I].
Qed.
End Raising.
