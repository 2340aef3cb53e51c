(** Lemmas for C75: the decoder with other container types runs in step with the default one. *)
From Coq Require Import List NArith ZArith Bool Lia ZifyBool ZifyNat ZifyN.
From Verif Require Import Base Dict ModelTags ModelPrim ModelValue ValueFacts ModelObject ModelMap MapFacts ModelBuffer ModelHeap ModelDecode SpecBuild SpecContents ContentsFacts
  SpecNumber ModelEncode HashFacts ModelContainers.
Import ListNotations.
Open Scope nat_scope.

(** * Hashes are stable while objects are added and containers filled *)
Definition valid (h : heap) (v : val) : Prop := match v with VRef o => o < length h | _ => True end.
Definition good_cell (h : heap) (x : obj) : Prop :=
  match x with
  | OView b _ => exists y, nth_error h b = Some y /\ is_buffer y = true
  | OBuffer b => jb_readonly b = false
  | OMap m => Forall (fun p => valid h (fst (snd p))) m
  | OSet _ | OObject _ | OArray _ | OError _ _ _ _ | ORegExp _ _ | ODate _ | OShared _ | OTransfer _ | OSharedRef _ => True
  | _ => False
  end.
Definition is_open (x : obj) : bool :=
  match x with OMap _ | OSet _ | OObject _ | OArray _ | OError _ _ _ _ | ODict _ => true | _ => false end.
Definition hsame (x x' : obj) : Prop := x' = x \/ (is_open x = true /\ is_open x' = true).
Definition hgrows (h h' : heap) : Prop := forall i x, nth_error h i = Some x -> exists x', nth_error h' i = Some x' /\ hsame x x'.
Lemma hsame_trans a b c : hsame a b -> hsame b c -> hsame a c.
Proof. intros [->|[A B]] [->|[C E]]; unfold hsame; auto. Qed.
Lemma hgrows_refl h : hgrows h h.
Proof. intros i x E. exists x. split; auto. left; auto. Qed.
Lemma hgrows_trans a b c : hgrows a b -> hgrows b c -> hgrows a c.
Proof. intros A B i x E. apply A in E as (y & E & S1). apply B in E as (z & E & S2). exists z. split; auto. eapply hsame_trans; eauto. Qed.
Lemma hgrows_app h x : hgrows h (h ++ [x]).
Proof. intros i y E. exists y. split; [|left; auto]. rewrite nth_error_app1; auto. apply nth_error_Some. congruence. Qed.
Lemma hgrows_len h h' : hgrows h h' -> length h <= length h'.
Proof.
  intros G. destruct (Nat.le_gt_cases (length h) (length h')) as [L|L]; auto.
  destruct (nth_error h (length h')) as [x|] eqn:E; [|apply nth_error_None in E; lia].
  apply G in E as (y & E & _). assert (length h' < length h') by (apply nth_error_Some; congruence). lia.
Qed.
Lemma keeps_hgrows st st' : keeps st st' -> hgrows (ds_heap st) (ds_heap st').
Proof.
  intros [L K] i x E. exists x. split; [|left; auto]. rewrite K; auto. apply nth_error_Some. congruence.
Qed.
Lemma heap_set_len h : forall i x, length (heap_set h i x) = length h.
Proof. induction h as [|y h IH]; intros [|i] x; cbn; auto. Qed.
Lemma heap_set_same h : forall i x, i < length h -> nth_error (heap_set h i x) i = Some x.
Proof. induction h as [|y h IH]; intros [|i] x L; cbn in *; auto; try lia. apply IH. lia. Qed.
Lemma heap_set_other h : forall i j x, i <> j -> nth_error (heap_set h i x) j = nth_error h j.
Proof. induction h as [|y h IH]; intros [|i] [|j] x L; cbn; auto; try lia. Qed.
Lemma hgrows_set h i x y : nth_error h i = Some x -> is_open x = true -> is_open y = true -> hgrows h (heap_set h i y).
Proof.
  intros E A B j z Ej. destruct (Nat.eq_dec i j) as [<-|Ne].
  - rewrite heap_set_same by (apply nth_error_Some; congruence). exists y. split; auto. right. split; congruence.
  - rewrite heap_set_other by auto. exists z. split; auto. left; auto.
Qed.
Lemma valid_grows h h' v : hgrows h h' -> valid h v -> valid h' v.
Proof. intros G. apply hgrows_len in G. destruct v; cbn; auto. lia. Qed.
Lemma buffer_grows h h' b y : hgrows h h' -> nth_error h b = Some y -> is_buffer y = true -> nth_error h' b = Some y.
Proof. intros G E B. apply G in E as (z & E & [->|[O _]]); auto. destruct y; discriminate. Qed.
Lemma good_grows h h' x : hgrows h h' -> good_cell h x -> good_cell h' x.
Proof.
  intros G. destruct x; cbn; auto.
  - intros F. eapply Forall_impl; [|exact F]. intros p. apply valid_grows, G.
  - intros (y & E & B). exists y. split; auto. eapply buffer_grows; eauto.
Qed.

Lemma dkey_stable h h' v : hgrows h h' -> Forall (good_cell h) h -> valid h v -> dkey h' v = dkey h v.
Proof.
  intros G F V. unfold dkey. rewrite !hash_S. destruct v; auto. cbn in V.
  destruct (nth_error h oid) as [x|] eqn:E; [|apply nth_error_None in E; lia].
  destruct (G _ _ E) as (x' & E' & [->|[A B]]); rewrite E'.
  - rewrite Forall_forall in F. pose proof (F x (nth_error_In _ _ E)) as Gx. destruct x; try contradiction; auto.
    destruct Gx as (y & Ey & By). unfold backing_of. rewrite (buffer_grows _ _ _ _ G Ey By), Ey. reflexivity.
  - destruct x; try discriminate; destruct x'; try discriminate; reflexivity.
Qed.
Lemma hashable_stable h h' v : hgrows h h' -> Forall (good_cell h) h -> valid h v -> hashable h' v = hashable h v.
Proof. intros G F V. unfold hashable. rewrite (dkey_stable h h' v G F V). reflexivity. Qed.

(** * Python dicts *)
Definition pyd (key : val -> option hkey) (ps : list (val * val)) : list (val * val) :=
  fold_left (fun d p => dict_put key d (fst p) (snd p)) ps [].
Lemma pyd_snoc key ps k v : pyd key (ps ++ [(k, v)]) = dict_put key (pyd key ps) k v.
Proof. unfold pyd. rewrite fold_left_app. reflexivity. Qed.
Lemma dict_put_keys key l k v x : In x (map fst (dict_put key l k v)) -> x = k \/ In x (map fst l).
Proof.
  induction l as [|[k' v'] l IH]; cbn; [intros [<-|[]]; auto|]. destruct (same_dkey key k k'); cbn; [tauto|].
  intros [<-|J]; auto. apply IH in J as [->|J]; auto.
Qed.
Lemma pyd_keys key ps x : In x (map fst (pyd key ps)) -> In x (map fst ps).
Proof.
  induction ps as [|[k v] ps IH] using rev_ind; auto. rewrite pyd_snoc, map_app, in_app_iff.
  intros J. apply dict_put_keys in J as [->|J]; auto. right. cbn. auto.
Qed.
Lemma dict_put_ext key key' l k v : key k = key' k -> Forall (fun p => key (fst p) = key' (fst p)) l -> dict_put key l k v = dict_put key' l k v.
Proof.
  intros E F. induction F as [|[k' v'] l E' F IH]; cbn in *; auto. unfold same_dkey. rewrite E, E', IH. reflexivity.
Qed.
Lemma pyd_ext key key' ps : Forall (fun p => key (fst p) = key' (fst p)) ps -> pyd key ps = pyd key' ps.
Proof.
  induction ps as [|[k v] ps IH] using rev_ind; intros F; auto. apply Forall_app in F as [F1 F2]. inversion F2; subst.
  rewrite !pyd_snoc, (IH F1). apply dict_put_ext; auto. apply Forall_forall. intros p J. apply (in_map fst), pyd_keys in J.
  apply in_map_iff in J as (q & E & J). rewrite Forall_forall in F1. apply F1 in J. congruence.
Qed.

Section Step.
Variable T : types.
Variable cfg : dcfg.
Hypothesis Consts : forall t o, c_const cfg t <> VRef o.

(** Repeated assignment to a default container *)
Fixpoint put_all (x : obj) (ps : list (val * val)) : result obj :=
  match ps with [] => Ok x | (k, v) :: r => do x <- put cfg x k v; put_all x r end.
Lemma put_all_snoc ps : forall x k v, put_all x (ps ++ [(k, v)]) = do x <- put_all x ps; put cfg x k v.
Proof.
  induction ps as [|[k' v'] ps IH]; intros x k v; cbn [put_all app].
  - cbn. destruct (put cfg x k v); reflexivity.
  - destruct (put cfg x k' v') as [y|e]; cbn; auto.
Qed.

(** Whether the option for the kind of [x] is set, and the empty container of that kind *)
Definition chosen (x : obj) : bool :=
  match x with OMap _ => t_map T | OObject _ => t_object T | OArray _ => t_array T | _ => false end.
Definition empty_of (x : obj) : obj :=
  match x with OMap _ => OMap [] | OObject _ => OObject jo_empty | _ => OArray jo_empty end.
(** The object that replaces [x] *)
Definition filled_with (h : heap) (x x' : obj) : Prop :=
  exists ps, Forall (fun p => valid h (fst p) /\ hashable h (fst p) = true) ps /\ put_all (empty_of x) ps = Ok x /\
    x' = ODict (pyd (dkey h) ps).
Definition crel (h : heap) (x x' : obj) : Prop :=
  match x with
  | OMap _ => if t_map T then filled_with h x x' else x' = x
  | OObject _ => if t_object T then filled_with h x x' else x' = x
  | OArray _ => if t_array T then filled_with h x x' else x' = x
  | OError n m s c => if t_error T then exists m0, m = Some (match m0 with Some m => m | None => [] end) /\ x' = OError n m0 s c else x' = x
  | OSet _ => t_set T = false /\ x' = x
  | _ => x' = x
  end.
Lemma crel_hsame h x x' : crel h x x' -> hsame x x'.
Proof.
  unfold hsame. destruct x; cbn; try (intros ->; auto; fail); try (intros [_ ->]; auto; fail).
  1-3: match goal with |- (if ?c then _ else _) -> _ => destruct c end; [intros (ps & _ & _ & ->); auto|intros ->; auto].
  destruct (t_error T); [intros (m & _ & ->); auto|intros ->; auto].
Qed.
Lemma crel_grows h h' x x' : hgrows h h' -> Forall (good_cell h) h -> crel h x x' -> crel h' x x'.
Proof.
  intros G F.
  assert (P : filled_with h x x' -> filled_with h' x x').
  { intros (ps & A & B & ->). exists ps. split; [|split; auto].
    - eapply Forall_impl; [|exact A]. intros p [V Ha]. split; [eapply valid_grows; eauto|]. rewrite (hashable_stable h h'); auto.
    - f_equal. apply pyd_ext. eapply Forall_impl; [|exact A]. intros p [V _]. symmetry. apply dkey_stable; auto. }
  destruct x; cbn; auto; match goal with |- (if ?c then _ else _) -> _ => destruct c end; auto.
Qed.

(** * States *)
Definition inv (st : dstate) : Prop := Forall (good_cell (ds_heap st)) (ds_heap st) /\ Forall (valid (ds_heap st)) (ds_log st).
Definition rel (st st' : dstate) : Prop := ds_log st' = ds_log st /\ Forall2 (crel (ds_heap st)) (ds_heap st) (ds_heap st').
Lemma Forall2_nth {A B} (P : A -> B -> Prop) l l' : Forall2 P l l' -> forall i x, nth_error l i = Some x -> exists y, nth_error l' i = Some y /\ P x y.
Proof.
  induction 1 as [|x y l l' E F IH]; intros [|i] z; cbn; try discriminate; eauto. intros [= <-]. eauto.
Qed.
Lemma Forall2_len {A B} (P : A -> B -> Prop) l l' : Forall2 P l l' -> length l = length l'.
Proof. induction 1; cbn; auto. Qed.
Lemma rel_len st st' : rel st st' -> length (ds_heap st') = length (ds_heap st).
Proof. intros [_ F]. symmetry. eapply Forall2_len; eauto. Qed.
Lemma rel_hgrows st st' : rel st st' -> hgrows (ds_heap st) (ds_heap st').
Proof. intros [_ F] i x E. destruct (Forall2_nth _ _ _ F _ _ E) as (y & Ey & C). exists y. split; auto. eapply crel_hsame; eauto. Qed.
Lemma inv_grow st h : inv st -> hgrows (ds_heap st) h -> Forall (good_cell h) (ds_heap st) /\ Forall (valid h) (ds_log st).
Proof.
  intros [A B] G. split; [eapply Forall_impl; [|exact A]; intros x; apply good_grows, G|eapply Forall_impl; [|exact B]; intros x; apply valid_grows, G].
Qed.
Lemma inv_alloc x st : inv st -> good_cell (ds_heap st) x -> inv (snd (alloc x st)).
Proof.
  intros I G. pose proof (hgrows_app (ds_heap st) x) as Gr. destruct (inv_grow _ _ I Gr) as [A B]. split; cbn; auto.
  apply Forall_app. split; auto. repeat constructor. eapply good_grows; eauto.
Qed.
Lemma inv_record v st : inv st -> valid (ds_heap st) v -> inv (record v st).
Proof. intros [A B] V. split; cbn; auto. apply Forall_app. auto. Qed.
Lemma inv_begun x st : inv st -> good_cell (ds_heap st) x -> inv (begun x st).
Proof. intros I G. apply (inv_record (VRef (length (ds_heap st))) (snd (alloc x st))); [apply inv_alloc; auto|]. cbn. rewrite app_length. cbn. lia. Qed.
Lemma Forall_set (P : obj -> Prop) y h : forall i, Forall P h -> P y -> Forall P (heap_set h i y).
Proof. induction h as [|x h IH]; intros [|i] F Q; cbn; auto; inversion F; subst; constructor; auto. Qed.
Lemma inv_store i x y st : inv st -> nth_error (ds_heap st) i = Some x -> is_open x = true -> is_open y = true ->
  good_cell (ds_heap st) y -> inv (store i y st).
Proof.
  intros I E A B G. pose proof (hgrows_set _ _ _ y E A B) as Gr. destruct (inv_grow _ _ I Gr) as [F1 F2]. split; cbn; auto.
  apply Forall_set; auto. eapply good_grows; eauto.
Qed.
Lemma crel_list h h' l l' : Forall (good_cell h) h -> hgrows h h' -> Forall2 (crel h) l l' -> Forall2 (crel h') l l'.
Proof. intros A G F. induction F; constructor; auto. eapply crel_grows; eauto. Qed.
Lemma crel_all st h l' : inv st -> hgrows (ds_heap st) h -> Forall2 (crel (ds_heap st)) (ds_heap st) l' -> Forall2 (crel h) (ds_heap st) l'.
Proof. intros [A _] G F. eapply crel_list; eauto. Qed.
Lemma rel_alloc x x' st st' : inv st -> rel st st' -> crel (ds_heap st) x x' -> rel (snd (alloc x st)) (snd (alloc x' st')).
Proof.
  intros I [L F] C. pose proof (hgrows_app (ds_heap st) x) as Gr. split; cbn; auto. apply Forall2_app; [apply crel_all; auto|].
  repeat constructor. eapply crel_grows; eauto. apply I.
Qed.
Lemma rel_record v st st' : rel st st' -> rel (record v st) (record v st').
Proof. intros [L F]. split; cbn; auto. congruence. Qed.
Lemma rel_begun x x' st st' : inv st -> rel st st' -> crel (ds_heap st) x x' -> rel (begun x st) (begun x' st').
Proof.
  intros I R C. pose proof (rel_len _ _ R) as Ln. pose proof (rel_record (VRef (length (ds_heap st))) _ _ (rel_alloc _ _ _ _ I R C)) as Q.
  unfold begun. rewrite Ln. exact Q.
Qed.
Lemma Forall2_set (P : obj -> obj -> Prop) y y' l l' : forall i, Forall2 P l l' -> P y y' -> Forall2 P (heap_set l i y) (heap_set l' i y').
Proof. intros i F Q. revert i. induction F as [|a b l l' E F IH]; intros [|i]; cbn; auto. Qed.
Lemma rel_store i x y y' st st' : inv st -> rel st st' -> nth_error (ds_heap st) i = Some x -> is_open x = true -> is_open y = true ->
  crel (ds_heap st) y y' -> rel (store i y st) (store i y' st').
Proof.
  intros I [L F] E A B C. pose proof (hgrows_set _ _ _ y E A B) as Gr. split; cbn; auto. apply Forall2_set; [apply crel_all; auto|].
  eapply crel_grows; eauto. apply I.
Qed.

(** * The default decoder keeps the objects it has made *)
Definition done {A} (P : heap -> A -> Prop) (st : dstate) (r : dres A) : Prop :=
  forall v p st2, r = Ok (v, p, st2) -> inv st2 /\ keeps st st2 /\ P (ds_heap st2) v.
Definition anything {A} (h : heap) (v : A) : Prop := True.
Lemma done_ok {A} (P : heap -> A -> Prop) st st2 v p : inv st2 -> keeps st st2 -> P (ds_heap st2) v -> done P st (Ok (v, p, st2)).
Proof. intros I K V v' p' s [= <- <- <-]. auto. Qed.
Lemma done_err {A} (P : heap -> A -> Prop) st e : done P st (Err e).
Proof. intros v p s [=]. Qed.
Lemma done_pure {A B} (P : heap -> A -> Prop) st (r : result B) k : (forall x, r = Ok x -> done P st (k x)) -> done P st (do x <- r; k x).
Proof. intros F v p s. destruct r as [x|e]; cbn; [apply F; auto|discriminate]. Qed.
Lemma done_bind {A B} (P : heap -> A -> Prop) (Q : heap -> B -> Prop) st (r : dres A) (k : A * nat * dstate -> dres B) : done P st r ->
  (forall v p st2, inv st2 -> keeps st st2 -> P (ds_heap st2) v -> done Q st2 (k (v, p, st2))) -> done Q st (bind r k).
Proof.
  intros D F v p s. destruct r as [[[x q] s1]|e]; cbn; [|discriminate]. destruct (D _ _ _ eq_refl) as (I & K & V).
  intros E. destruct (F _ _ _ I K V _ _ _ E) as (I2 & K2 & V2). split; auto. split; auto. eapply keeps_trans; eauto.
Qed.
Lemma done_from {A} (P : heap -> A -> Prop) st st1 r : keeps st st1 -> done P st1 r -> done P st r.
Proof. intros K D v p s E. destruct (D _ _ _ E) as (I & K2 & V). split; auto. split; auto. eapply keeps_trans; eauto. Qed.
Definition reads (st : dstate) (rec : reader) : Prop := forall t p st, inv st -> done valid st (rec t p st).

Lemma keeps_alloc x st : keeps st (snd (alloc x st)).
Proof. split; cbn; [rewrite app_length; lia|]. intros i L. rewrite nth_error_app1; auto. Qed.
Lemma keeps_begun x st : keeps st (begun x st).
Proof. apply (keeps_alloc x st). Qed.
Lemma keeps_record v st : keeps st (record v st).
Proof. split; auto. Qed.
Lemma keeps_store st st2 x : keeps st st2 -> keeps st (store (length (ds_heap st)) x st2).
Proof. intros [L K]. split; cbn; [rewrite heap_set_len; auto|]. intros i Li. rewrite heap_set_other by lia. auto. Qed.
Lemma begun_cell x st : nth_error (ds_heap (begun x st)) (length (ds_heap st)) = Some x.
Proof. cbn. rewrite nth_error_app2 by lia. rewrite Nat.sub_diag. reflexivity. Qed.
Lemma alloc_rec_begun x st : alloc_rec x st = (length (ds_heap st), begun x st).
Proof. reflexivity. Qed.

Section Readers.
Variable data : bytes.
Variable version : N.
Lemma view_done b pos st : inv st -> (exists y, nth_error (ds_heap st) b = Some y /\ is_buffer y = true) -> done valid st (dec_view data version b pos st).
Proof.
  intros I G. unfold dec_view. apply done_pure. intros [code p] _. destruct (vtag_of_code code); [|apply done_err].
  apply done_pure. intros [off p1] _. apply done_pure. intros [len p2] _. apply done_pure. intros [fl p3] _. apply done_pure. intros w _.
  rewrite alloc_rec_begun. apply done_ok; [apply inv_begun; auto|apply keeps_begun|]. cbn. rewrite app_length. cbn. lia.
Qed.
Lemma maybe_view_done b pos st : inv st -> (exists y, nth_error (ds_heap st) b = Some y /\ is_buffer y = true) -> done valid st (dec_maybe_view data version b pos st).
Proof.
  intros I G. unfold dec_maybe_view. apply done_pure. intros t _.
  assert (done valid st (Ok (VRef b, pos, st))).
  { apply done_ok; auto; [apply keeps_refl|]. destruct G as (y & E & _). cbn. apply nth_error_Some. congruence. }
  destruct t as [t|]; auto. destruct t; auto. apply view_done; auto.
Qed.
Lemma jsbuf_writable d m r b : jsbuf_new d m r false = Ok b -> jb_readonly b = false.
Proof. unfold jsbuf_new. destruct (_ && _); [discriminate|]. destruct (_ <? _)%Z; [discriminate|]. intros [= <-]. reflexivity. Qed.
Lemma alloc_cell x st : nth_error (ds_heap (snd (alloc x st))) (length (ds_heap st)) = Some x.
Proof. exact (begun_cell x st). Qed.
Definition leaf (t : stag) : Prop :=
  match t with kRegExp | kBeginJSMap | kBeginJSSet | kBeginJSObject | kBeginDenseJSArray | kBeginSparseJSArray | kError => False | _ => True end.
Lemma begun_done x st p : inv st -> good_cell (ds_heap st) x -> done valid st (Ok (VRef (length (ds_heap st)), p, begun x st)).
Proof. intros In G. apply done_ok; [apply inv_begun; auto|apply keeps_begun|]. cbn. rewrite app_length. cbn. lia. Qed.
Lemma const_valid h t : valid h (c_const cfg t).
Proof. destruct (c_const cfg t) eqn:E; cbn; auto. exfalso; eapply Consts; eauto. Qed.
Ltac leaf_tac :=
  first [ apply done_err
        | apply done_ok; [assumption|apply keeps_refl|first [exact Logic.I|apply const_valid]]
        | unfold dec_wrapped; apply done_ok; [apply inv_record; [assumption|exact Logic.I]|apply keeps_record|exact Logic.I]
        | apply done_pure; intros [? ?] _; leaf_tac ].
Lemma reference_done pos st : inv st -> done valid st (dec_reference data version pos st).
Proof.
  intros In. unfold dec_reference. apply done_pure. intros [id p] _. destruct (negb _); [apply done_err|].
  destruct (nth_error (ds_log st) (N.to_nat id)) as [v|] eqn:E; [|apply done_err].
  assert (V : valid (ds_heap st) v) by (destruct In as [_ F]; rewrite Forall_forall in F; apply F; eapply nth_error_In; eauto).
  destruct v; try (apply done_ok; auto; apply keeps_refl).
  destruct (nth_error (ds_heap st) oid) as [x|] eqn:Ex; [|apply done_ok; auto; apply keeps_refl].
  destruct (is_buffer x) eqn:B; [|apply done_ok; auto; apply keeps_refl]. apply maybe_view_done; eauto.
Qed.
Lemma buffer_id_done mk pos st : inv st -> (forall n, good_cell (ds_heap st) (mk n) /\ is_buffer (mk n) = true) -> done valid st (dec_buffer_id data version mk pos st).
Proof.
  intros In G. unfold dec_buffer_id. apply done_pure. intros [n p] _. destruct (G n) as [G1 G2].
  change (done valid st (dec_maybe_view data version (length (ds_heap st)) p (snd (alloc (mk n) st)))).
  eapply done_from; [apply (keeps_alloc (mk n))|]. apply maybe_view_done; [apply inv_alloc; auto|]. exists (mk n). split; auto. apply alloc_cell.
Qed.
Lemma begun_view_done x pos st : inv st -> good_cell (ds_heap st) x -> is_buffer x = true -> done valid st (dec_maybe_view data version (length (ds_heap st)) pos (begun x st)).
Proof.
  intros In G B. eapply done_from; [apply (keeps_begun x)|]. apply maybe_view_done; [apply inv_begun; auto|]. exists x. split; auto. apply begun_cell.
Qed.
Lemma leaf_done f t pos st : inv st -> leaf t -> done valid st (dec cfg data version (S f) t pos st).
Proof.
  intros In Leaf. destruct t; try contradiction; cbn [dec]; try solve [leaf_tac].
  - apply reference_done; auto.
  - unfold dec_date. apply done_pure. intros [b p] _. destruct (c_date cfg b); [|apply done_err]. rewrite alloc_rec_begun. apply begun_done; cbn; auto.
  - unfold dec_buffer_plain. apply done_pure. intros [n p] _. destruct (negb _); [apply done_err|]. apply done_pure. intros b E.
    rewrite alloc_rec_begun. apply begun_view_done; cbn; auto. eapply jsbuf_writable; eauto.
  - unfold dec_buffer_resizable. apply done_pure. intros [n p] _. destruct (negb _); [apply done_err|]. apply done_pure. intros [mx p2] _.
    destruct (_ <? _)%N; [apply done_err|]. apply done_pure. intros b E.
    rewrite alloc_rec_begun. apply begun_view_done; cbn; auto. eapply jsbuf_writable; eauto.
  - apply buffer_id_done; cbn; auto.
  - apply buffer_id_done; cbn; auto.
  - apply done_pure. intros [n p] _. rewrite alloc_rec_begun. apply begun_done; cbn; auto.
  - destruct (c_host cfg); [|apply done_err]. unfold dec_host. apply done_pure. intros [code p] _. apply done_pure. intros [n p2] _.
    destruct (node_format code) as [vt|]; [|apply done_err]. destruct (negb _); [apply done_err|]. apply done_pure. intros b E. cbn [alloc].
    apply done_pure. intros w _.
    pose proof (inv_alloc (OBuffer b) st In (jsbuf_writable _ _ _ _ E)) as I1.
    assert (G : good_cell (ds_heap (snd (alloc (OBuffer b) st))) (OView (length (ds_heap st)) w)).
    { cbn [good_cell]. exists (OBuffer b). split; [apply alloc_cell|reflexivity]. }
    apply done_ok.
    + exact (inv_alloc _ _ I1 G).
    + exact (keeps_trans _ _ _ (keeps_alloc (OBuffer b) st) (keeps_alloc (OView (length (ds_heap st)) w) (snd (alloc (OBuffer b) st)))).
    + cbn. rewrite !app_length. cbn. lia.
Qed.

(** The other readers, from a reader of the values inside *)
Section Rec.
Variable rec : reader.
Hypothesis Rec : forall t p st, inv st -> done valid st (rec t p st).
Lemma value_done pos st : inv st -> done valid st (dec_value data rec pos st).
Proof. intros In. apply done_pure. intros [t p] _. apply Rec; auto. Qed.
Lemma string_done pos st : inv st -> done anything st (dec_string data rec pos st).
Proof.
  intros In. apply done_pure. intros [t p] _. destruct (negb _); [apply done_err|]. eapply done_bind; [apply Rec; auto|].
  intros v q st2 I2 K V. destruct v; try apply done_err. apply done_ok; [auto|apply keeps_refl|exact Logic.I].
Qed.
Lemma field_done fd e pos st : inv st -> done anything st (dec_field data rec fd e pos st).
Proof.
  intros In. unfold dec_field. destruct (etag_beq e fd); [|apply done_ok; [auto|apply keeps_refl|exact Logic.I]].
  eapply done_bind; [apply string_done; auto|]. intros v q st2 I2 K V. apply done_pure. intros [e2 p2] _. apply done_ok; [auto|apply keeps_refl|exact Logic.I].
Qed.

(** Containers being filled *)
Definition filling (h : heap) (acc : obj) : Prop := good_cell h acc /\ match acc with OMap _ | OObject _ | OArray _ => True | _ => False end.
Definition kind (x y : obj) : Prop := match x, y with OMap _, OMap _ | OObject _, OObject _ | OArray _, OArray _ => True | _, _ => False end.
Lemma put_kind x k v y : put cfg x k v = Ok y -> kind x y.
Proof.
  destruct x; cbn; try discriminate; intros E.
  - destruct (jm_set _ _ _ _); cbn in E; [injection E as <-; exact Logic.I|discriminate].
  - destruct (jo_put _ _ _ _); cbn in E; [injection E as <-; exact Logic.I|discriminate].
  - destruct (jo_put _ _ _ _); cbn in E; [injection E as <-; exact Logic.I|discriminate].
Qed.
Lemma dset_all {K V} (eqb : K -> K -> bool) (P : V -> Prop) k v : forall d, Forall (fun p => P (snd p)) d -> P v -> Forall (fun p => P (snd p)) (dset eqb k v d).
Proof. induction d as [|[a w] d IH]; intros F Pv; cbn; [repeat constructor; auto|]. inversion F; subst. destruct (eqb k a); constructor; auto. Qed.
Lemma put_filling h x k v y : put cfg x k v = Ok y -> filling h x -> valid h k -> filling h y.
Proof.
  intros E [G Kx] V. pose proof (put_kind _ _ _ _ E) as Kd. split; [|destruct x, y; try contradiction; exact Logic.I].
  destruct x; try contradiction; destruct y; try contradiction; auto. cbn in E, G |- *. unfold jm_set in E.
  destruct (same_value_zero no_bytes k) as [s|e] eqn:Es; cbn in E; [|discriminate]. injection E as <-. apply (dset_all svz_eqb (fun q => valid h (fst q))); auto.
Qed.
Lemma filling_grows h h' x : hgrows h h' -> filling h x -> filling h' x.
Proof. intros G [A B]. split; auto. eapply good_grows; eauto. Qed.
Lemma pairs_done is_key endt : forall fuel pos acc n st, inv st -> filling (ds_heap st) acc ->
  done (fun h r => filling h (fst r) /\ kind acc (fst r)) st (dec_pairs cfg data rec is_key endt fuel pos acc n st).
Proof.
  induction fuel as [|fuel IH]; intros pos acc n st In F; [apply done_err|]. cbn [dec_pairs]. apply done_pure. intros [t p] _.
  destruct (stag_eqb t endt). { apply done_ok; auto; [apply keeps_refl|]. split; [exact F|]. destruct F as [_ F]. cbn. destruct acc; try contradiction; exact Logic.I. }
  destruct (is_key t); [|apply done_err]. eapply done_bind; [apply Rec; auto|]. intros k q st2 I2 K2 V2. destruct (negb _); [apply done_err|].
  eapply done_bind; [apply value_done; auto|]. intros v q3 st3 I3 K3 V3. apply done_pure. intros acc2 E.
  pose proof (put_kind _ _ _ _ E) as Kd.
  assert (F3 : filling (ds_heap st3) acc) by (apply (filling_grows (ds_heap st)); auto; apply keeps_hgrows; eapply keeps_trans; eauto).
  assert (F4 : filling (ds_heap st3) acc2) by (eapply put_filling; eauto; eapply valid_grows; [apply keeps_hgrows; eauto|auto]).
  intros r p4 st4 E4. destruct (IH _ _ _ _ I3 F4 _ _ _ E4) as (A & B & C & D). repeat (split; auto).
  destruct acc, acc2; try contradiction; destruct (fst r); auto; contradiction.
Qed.
Lemma elems_done : forall fuel count i pos acc st, inv st -> filling (ds_heap st) acc ->
  done (fun h r => filling h r /\ kind acc r) st (dec_elems cfg data rec fuel count i pos acc st).
Proof.
  induction fuel as [|fuel IH]; intros count i pos acc st In F; cbn [dec_elems]; destruct (i =? count)%N; try apply done_err;
    try (apply done_ok; auto; [apply keeps_refl|]; split; [exact F|]; destruct F as [_ F]; destruct acc; try contradiction; exact Logic.I).
  eapply done_bind; [apply value_done; auto|]. intros v q3 st3 I3 K3 V3. apply done_pure. intros acc2 E.
  pose proof (put_kind _ _ _ _ E) as Kd.
  assert (F3 : filling (ds_heap st3) acc) by (apply (filling_grows (ds_heap st)); auto; apply keeps_hgrows; auto).
  assert (F4 : filling (ds_heap st3) acc2) by (eapply put_filling; eauto; exact Logic.I).
  intros r p4 st4 E4. destruct (IH _ _ _ _ _ I3 F4 _ _ _ E4) as (A & B & C & D). repeat (split; auto).
  destruct acc, acc2; try contradiction; destruct r; auto; contradiction.
Qed.
Definition is_set (x : obj) : Prop := match x with OSet _ => True | _ => False end.
Lemma members_done : forall fuel pos acc n st, inv st -> is_set acc ->
  done (fun h r => is_set (fst r)) st (dec_members data rec fuel pos acc n st).
Proof.
  induction fuel as [|fuel IH]; intros pos acc n st In F; [apply done_err|]. cbn [dec_members]. apply done_pure. intros [t p] _.
  destruct (stag_eqb t kEndJSSet). { apply done_ok; auto. apply keeps_refl. }
  eapply done_bind; [apply Rec; auto|]. intros k q st2 I2 K2 V2. apply done_pure. intros acc2 E. apply IH; auto.
  destruct acc; try contradiction. cbn in E. destruct (js_add _ _ _); cbn in E; [injection E as <-; exact Logic.I|discriminate].
Qed.
(** A container that was begun and is stored at the end *)
Lemma finish_done st x st2 y p : inv st -> is_open x = true -> inv st2 -> keeps (begun x st) st2 -> is_open y = true -> good_cell (ds_heap st2) y ->
  inv (store (length (ds_heap st)) y st2) /\ keeps st (store (length (ds_heap st)) y st2) /\ valid (ds_heap (store (length (ds_heap st)) y st2)) (VRef (length (ds_heap st))) /\
  done valid st (Ok (VRef (length (ds_heap st)), p, store (length (ds_heap st)) y st2)).
Proof.
  intros In Ox I2 K2 Oy G.
  assert (E : nth_error (ds_heap st2) (length (ds_heap st)) = Some x).
  { destruct K2 as [L K]. rewrite K; [apply begun_cell|]. cbn. rewrite app_length. cbn. lia. }
  assert (A : inv (store (length (ds_heap st)) y st2)) by (eapply inv_store; eauto).
  assert (B : keeps st (store (length (ds_heap st)) y st2)) by (apply keeps_store; eapply keeps_trans; [apply keeps_begun|eauto]).
  assert (C : valid (ds_heap (store (length (ds_heap st)) y st2)) (VRef (length (ds_heap st)))).
  { cbn. rewrite heap_set_len. apply nth_error_Some. congruence. }
  split; [exact A|]. split; [exact B|]. split; [exact C|]. intros v q s [= <- <- <-]. auto.
Qed.
Lemma filling_open h x : filling h x -> is_open x = true /\ good_cell h x.
Proof. intros [A B]. split; auto. destruct x; try contradiction; reflexivity. Qed.
Lemma map_done fuel pos st : inv st -> done valid st (dec_map cfg data rec fuel pos st).
Proof.
  intros In v p s. unfold dec_map. rewrite alloc_rec_begun.
  assert (I1 : inv (begun (OMap []) st)) by (apply inv_begun; cbn; auto).
  pose proof (pairs_done (fun _ => true) kEndJSMap fuel pos (OMap []) 0 _ I1 (conj (Forall_nil _) Logic.I)) as D.
  destruct (dec_pairs _ _ _ _ _ _ _ _ _ _) as [[[[acc n] q] s1]|e]; cbn; [|discriminate]. destruct (D _ _ _ eq_refl) as (I2 & K2 & F & _).
  destruct (check_count data q _) as [q2|e]; cbn; [|discriminate]. apply filling_open in F as [Oy G].
  apply (finish_done st (OMap []) s1 acc q2); auto.
Qed.
Lemma set_done fuel pos st : inv st -> done valid st (dec_set data rec fuel pos st).
Proof.
  intros In v p s. unfold dec_set. rewrite alloc_rec_begun.
  assert (I1 : inv (begun (OSet []) st)) by (apply inv_begun; cbn; auto).
  pose proof (members_done fuel pos (OSet []) 0 _ I1 Logic.I) as D.
  destruct (dec_members _ _ _ _ _ _ _) as [[[[acc n] q] s1]|e]; cbn; [|discriminate]. destruct (D _ _ _ eq_refl) as (I2 & K2 & F).
  destruct (check_count data q _) as [q2|e]; cbn; [|discriminate].
  apply (finish_done st (OSet []) s1 acc q2); auto; cbn in F; destruct acc; try contradiction; cbn; auto.
Qed.
Lemma object_done fuel pos st : inv st -> done valid st (dec_object cfg data rec fuel pos st).
Proof.
  intros In v p s. unfold dec_object. rewrite alloc_rec_begun.
  assert (I1 : inv (begun (OObject jo_empty) st)) by (apply inv_begun; cbn; auto).
  pose proof (pairs_done is_object_key kEndJSObject fuel pos (OObject jo_empty) 0 _ I1 (conj Logic.I Logic.I)) as D.
  destruct (dec_pairs _ _ _ _ _ _ _ _ _ _) as [[[[acc n] q] s1]|e]; cbn; [|discriminate]. destruct (D _ _ _ eq_refl) as (I2 & K2 & F & _).
  destruct (check_count data q _) as [q2|e]; cbn; [|discriminate]. apply filling_open in F as [Oy G].
  apply (finish_done st (OObject jo_empty) s1 acc q2); auto.
Qed.
Lemma dense_done fuel pos st : inv st -> done valid st (dec_dense cfg data rec fuel pos st).
Proof.
  intros In v p s. unfold dec_dense. rewrite alloc_rec_begun.
  assert (I1 : inv (begun (OArray jo_empty) st)) by (apply inv_begun; cbn; auto).
  destruct (read_varint data pos 0) as [[count q0]|e]; cbn [bind]; [|discriminate].
  pose proof (elems_done fuel count 0 q0 (OArray jo_empty) _ I1 (conj Logic.I Logic.I)) as D0.
  destruct (dec_elems _ _ _ _ _ _ _ _ _) as [[[acc0 q1] s0]|e]; cbn [bind]; [|discriminate]. destruct (D0 _ _ _ eq_refl) as (I0 & K0 & F0 & _).
  pose proof (pairs_done is_object_key kEndDenseJSArray fuel q1 acc0 0 _ I0 F0) as D.
  destruct (dec_pairs _ _ _ _ _ _ _ _ _ _) as [[[[acc n] q] s1]|e]; cbn [bind]; [|discriminate]. destruct (D _ _ _ eq_refl) as (I2 & K2 & F & _).
  destruct (check_count data q _) as [q2|e]; cbn [bind]; [|discriminate]. destruct (check_count data q2 _) as [q3|e]; cbn [bind]; [|discriminate].
  apply filling_open in F as [Oy G]. apply (finish_done st (OArray jo_empty) s1 acc q3); auto. eapply keeps_trans; eauto.
Qed.
Lemma sparse_done fuel pos st : inv st -> done valid st (dec_sparse cfg data rec fuel pos st).
Proof.
  intros In v p s. unfold dec_sparse. rewrite alloc_rec_begun.
  assert (I1 : inv (begun (OArray jo_empty) st)) by (apply inv_begun; cbn; auto).
  destruct (read_varint data pos 0) as [[len q0]|e]; cbn [bind]; [|discriminate].
  destruct (if (0 <? len)%N then _ else _) as [acc0|e] eqn:Ea; cbn [bind]; [|discriminate].
  assert (F0 : filling (ds_heap (begun (OArray jo_empty) st)) acc0).
  { destruct (0 <? len)%N; [eapply put_filling; [exact Ea|split; exact Logic.I|exact Logic.I]|injection Ea as <-; split; exact Logic.I]. }
  pose proof (pairs_done is_object_key kEndSparseJSArray fuel q0 acc0 0 _ I1 F0) as D.
  destruct (dec_pairs _ _ _ _ _ _ _ _ _ _) as [[[[acc n] q] s1]|e]; cbn [bind]; [|discriminate]. destruct (D _ _ _ eq_refl) as (I2 & K2 & F & _).
  destruct (check_count data q _) as [q2|e]; cbn [bind]; [|discriminate]. destruct (check_count data q2 _) as [q3|e]; cbn [bind]; [|discriminate].
  apply filling_open in F as [Oy G]. apply (finish_done st (OArray jo_empty) s1 acc q3); auto.
Qed.
Lemma regexp_done pos st : inv st -> done valid st (dec_regexp data rec pos st).
Proof.
  intros In. unfold dec_regexp. eapply done_bind; [apply string_done; auto|]. intros x q st2 I2 K2 _. apply done_pure. intros [fl q2] _.
  apply done_pure. intros o Eo. rewrite alloc_rec_begun. apply begun_done; auto. unfold regexp_new in Eo. destruct (_ && _); [discriminate|]. injection Eo as <-. exact Logic.I.
Qed.
Lemma error_done pos st : inv st -> done valid st (dec_error data rec pos st).
Proof.
  intros In. unfold dec_error. apply done_pure. intros [e p] _. apply done_pure. intros [e2 p2] _.
  eapply done_bind; [apply field_done; auto|]. intros [m e3] q st2 I2 K2 _.
  eapply done_bind; [apply field_done; auto|]. intros [sk e4] q4 st4 I4 K4 _. rewrite alloc_rec_begun.
  set (x := OError _ _ _ _). assert (I5 : inv (begun x st4)) by (apply inv_begun; cbn; auto).
  intros v p6 s6.
  assert (D1 : done anything (begun x st4) (if etag_beq e4 eCause then
       do '(c, p, st) <- dec_value data rec q4 (begun x st4); do '(e, p) <- read_error_tag data p; Ok (c, e, p, st) else Ok (VNone, e4, q4, begun x st4))).
  { destruct (etag_beq e4 eCause); [|apply done_ok; [auto|apply keeps_refl|exact Logic.I]].
    eapply done_bind; [apply value_done; auto|]. intros c q5 st5 I6 K6 V6. apply done_pure. intros [e5 p5] _. apply done_ok; [auto|apply keeps_refl|exact Logic.I]. }
  destruct (if etag_beq e4 eCause then _ else _) as [[[[c e5] p5] st5]|er]; cbn [bind]; [|discriminate]. destruct (D1 _ _ _ eq_refl) as (I7 & K7 & _).
  assert (D2 : done anything st5 (match sk with Some _ => Ok (sk, e5, p5, st5) | None => dec_field data rec eStack e5 p5 st5 end)).
  { destruct sk; [apply done_ok; [auto|apply keeps_refl|exact Logic.I]|]. apply field_done; auto. }
  destruct (match sk with Some _ => _ | None => _ end) as [[[[sk2 e6] p7] st7]|er]; cbn [bind]; [|discriminate]. destruct (D2 _ _ _ eq_refl) as (I8 & K8 & _).
  destruct (etag_beq e6 eEnd); [|discriminate]. eapply (finish_done st4 x st7); try reflexivity; try exact Logic.I; auto. eapply keeps_trans; eauto.
Qed.
End Rec.
Lemma dec_done : forall fuel t pos st, inv st -> done valid st (dec cfg data version fuel t pos st).
Proof.
  induction fuel as [|f IH]; intros t pos st In; [apply done_err|].
  destruct t; try (apply leaf_done; [assumption|exact Logic.I]); cbn [dec].
  - apply object_done; auto.
  - apply sparse_done; auto.
  - apply dense_done; auto.
  - apply regexp_done; auto.
  - apply map_done; auto.
  - apply set_done; auto.
  - apply error_done; auto.
Qed.

(** * The two decoders in step *)
Definition unusable (h : heap) (x : obj) : Prop :=
  match x with
  | OSet _ => t_set T = true
  | OMap m => t_map T = true /\ exists o v, In (SId o, (VRef o, v)) m /\ valid h (VRef o) /\ hashable h (VRef o) = false
  | _ => False
  end.
Definition bad (st st2 : dstate) : Prop :=
  exists i x, length (ds_heap st) <= i /\ nth_error (ds_heap st2) i = Some x /\ unusable (ds_heap st2) x.
Lemma unusable_grows h h' x : hgrows h h' -> Forall (good_cell h) h -> unusable h x -> unusable h' x.
Proof.
  intros G F. destruct x; cbn [unusable]; auto. intros (A & o & v & J & V & Ha). split; auto. exists o, v. split; auto. split; [eapply valid_grows; eauto|].
  rewrite (hashable_stable h h'); auto.
Qed.
Lemma bad_after st st2 st3 : inv st2 -> bad st st2 -> keeps st2 st3 -> bad st st3.
Proof.
  intros I2 (i & x & L & E & U) K. exists i, x. split; auto. pose proof (keeps_hgrows _ _ K) as G. destruct K as [L3 K].
  rewrite K by (apply nth_error_Some; congruence). split; auto. eapply unusable_grows; eauto. apply I2.
Qed.
Lemma bad_before st st1 st2 : keeps st st1 -> bad st1 st2 -> bad st st2.
Proof. intros [L _] (i & x & Li & E). exists i, x. split; auto. unfold H in *. lia. Qed.
Lemma begun_kept st x st2 : keeps (begun x st) st2 -> nth_error (ds_heap st2) (length (ds_heap st)) = Some x.
Proof. intros [L K]. rewrite K; [apply begun_cell|]. cbn. rewrite app_length. cbn. lia. Qed.
Lemma bad_store st x y st2 : inv st2 -> keeps (begun x st) st2 -> is_open x = true -> is_open y = true -> bad (begun x st) st2 -> bad st (store (length (ds_heap st)) y st2).
Proof.
  intros I2 K Ox Oy (i & z & L & E & U). pose proof (hgrows_set _ _ _ y (begun_kept _ _ _ K) Ox Oy) as G.
  cbn in L. rewrite app_length in L. cbn in L. exists i, z. split; [lia|]. cbn. rewrite heap_set_other by lia. split; auto.
  eapply unusable_grows; eauto. apply I2.
Qed.
Lemma bad_own st x y st2 : inv st2 -> keeps (begun x st) st2 -> is_open x = true -> is_open y = true -> unusable (ds_heap st2) y -> bad st (store (length (ds_heap st)) y st2).
Proof.
  intros I2 K Ox Oy U. pose proof (begun_kept _ _ _ K) as E. pose proof (hgrows_set _ _ _ y E Ox Oy) as G.
  exists (length (ds_heap st)), y. split; auto. cbn. rewrite heap_set_same by (apply nth_error_Some; congruence). split; auto.
  eapply unusable_grows; eauto. apply I2.
Qed.

Definition sim {A B} (Q : heap -> A -> B -> Prop) (st : dstate) (r : dres A) (r' : dres B) : Prop :=
  forall v p st2, r = Ok (v, p, st2) ->
    (exists v' st2', r' = Ok (v', p, st2') /\ rel st2 st2' /\ Q (ds_heap st2) v v') \/ (r' = Err EType /\ bad st st2).
Definition same {A} (h : heap) (v v' : A) : Prop := v' = v.
Lemma sim_ok {A} st st2 st2' (v : A) p : rel st2 st2' -> sim same st (Ok (v, p, st2)) (Ok (v, p, st2')).
Proof. intros R w q s [= <- <- <-]. left. exists v, st2'. split; auto. split; auto. reflexivity. Qed.
Lemma sim_err {A B} (Q : heap -> A -> B -> Prop) st e r' : sim Q st (Err e) r'.
Proof. intros v p s [=]. Qed.
Lemma sim_pure {A B C} (Q : heap -> A -> B -> Prop) st (r : result C) k k' : (forall x, r = Ok x -> sim Q st (k x) (k' x)) -> sim Q st (do x <- r; k x) (do x <- r; k' x).
Proof. intros F v p s. destruct r as [x|e]; cbn; [apply F; auto|discriminate]. Qed.
Lemma sim_bind {A B C E} (P : heap -> A -> Prop) (P2 : heap -> C -> Prop) (Q : heap -> A -> B -> Prop) (Q2 : heap -> C -> E -> Prop) st (r : dres A) (r' : dres B)
    (k : A * nat * dstate -> dres C) (k' : B * nat * dstate -> dres E) :
  done P st r -> sim Q st r r' ->
  (forall v p st2, inv st2 -> P (ds_heap st2) v -> done P2 st2 (k (v, p, st2))) ->
  (forall v p v' st2 st2', inv st2 -> P (ds_heap st2) v -> rel st2 st2' -> Q (ds_heap st2) v v' -> sim Q2 st2 (k (v, p, st2)) (k' (v', p, st2'))) ->
  sim Q2 st (bind r k) (bind r' k').
Proof.
  intros D S1 Dk Sk v p s. destruct r as [[[x q] s1]|e]; cbn; [|discriminate]. intros Ek. destruct (D _ _ _ eq_refl) as (I1 & K1 & V1).
  destruct (Dk _ _ _ I1 V1 _ _ _ Ek) as (I2 & K2 & V2).
  destruct (S1 _ _ _ eq_refl) as [(x' & s1' & -> & R & Qx)|[-> B1]].
  - cbn. destruct (Sk _ q _ _ _ I1 V1 R Qx _ _ _ Ek) as [X|[-> B2]]; [left; exact X|]. right. split; auto. exact (bad_before _ _ _ K1 B2).
  - right. split; auto. exact (bad_after _ _ _ I1 B1 K2).
Qed.
Lemma sim_begun x st st' p : inv st -> rel st st' -> crel (ds_heap st) x x ->
  sim same st (Ok (VRef (length (ds_heap st)), p, begun x st)) (Ok (VRef (length (ds_heap st')), p, begun x st')).
Proof. intros In R C. rewrite (rel_len _ _ R). apply sim_ok. apply rel_begun; auto. Qed.
Lemma backing_same st st' b : rel st st' -> (exists y, nth_error (ds_heap st) b = Some y /\ is_buffer y = true) -> backing_of (ds_heap st') b = backing_of (ds_heap st) b.
Proof. intros R (y & E & B). unfold backing_of. rewrite E, (buffer_grows _ _ _ _ (rel_hgrows _ _ R) E B). reflexivity. Qed.
Lemma view_sim b pos st st' : inv st -> rel st st' -> (exists y, nth_error (ds_heap st) b = Some y /\ is_buffer y = true) ->
  sim same st (dec_view data version b pos st) (dec_view data version b pos st').
Proof.
  intros In R G. unfold dec_view. apply sim_pure. intros [code p] _. destruct (vtag_of_code code); [|apply sim_err].
  apply sim_pure. intros [off p1] _. apply sim_pure. intros [len p2] _. apply sim_pure. intros [fl p3] _. rewrite (backing_same _ _ _ R G). apply sim_pure. intros w _.
  rewrite !alloc_rec_begun. apply sim_begun; cbn; auto.
Qed.
Lemma maybe_view_sim b pos st st' : inv st -> rel st st' -> (exists y, nth_error (ds_heap st) b = Some y /\ is_buffer y = true) ->
  sim same st (dec_maybe_view data version b pos st) (dec_maybe_view data version b pos st').
Proof.
  intros In R G. unfold dec_maybe_view. apply sim_pure. intros t _.
  destruct t as [t|]; [|apply sim_ok; auto]. destruct t; try (apply sim_ok; auto; fail). apply view_sim; auto.
Qed.
Lemma sim_from {A B} (Q : heap -> A -> B -> Prop) st st1 r r' : keeps st st1 -> sim Q st1 r r' -> sim Q st r r'.
Proof. intros K S1 v p s E. destruct (S1 _ _ _ E) as [X|[-> X]]; [left; exact X|right; split; auto; eapply bad_before; eauto]. Qed.
Lemma begun_view_sim x pos st st' : inv st -> rel st st' -> good_cell (ds_heap st) x -> is_buffer x = true ->
  sim same st (dec_maybe_view data version (length (ds_heap st)) pos (begun x st)) (dec_maybe_view data version (length (ds_heap st')) pos (begun x st')).
Proof.
  intros In R G B. rewrite (rel_len _ _ R). eapply sim_from; [apply (keeps_begun x)|]. apply maybe_view_sim; [apply inv_begun; auto|apply rel_begun; auto|].
  - destruct x; try discriminate; reflexivity.
  - exists x. split; auto. apply begun_cell.
Qed.
Lemma buffer_id_sim mk pos st st' : inv st -> rel st st' -> (forall n, good_cell (ds_heap st) (mk n) /\ is_buffer (mk n) = true) ->
  sim same st (dec_buffer_id data version mk pos st) (dec_buffer_id data version mk pos st').
Proof.
  intros In R G. unfold dec_buffer_id. apply sim_pure. intros [n p] _. destruct (G n) as [G1 G2].
  change (sim same st (dec_maybe_view data version (length (ds_heap st)) p (snd (alloc (mk n) st))) (dec_maybe_view data version (length (ds_heap st')) p (snd (alloc (mk n) st')))).
  rewrite (rel_len _ _ R). eapply sim_from; [apply (keeps_alloc (mk n))|]. apply maybe_view_sim; [apply inv_alloc; auto|apply rel_alloc; auto|].
  - destruct (mk n); try discriminate; reflexivity.
  - exists (mk n). split; auto. apply alloc_cell.
Qed.
Lemma reference_sim pos st st' : inv st -> rel st st' -> sim same st (dec_reference data version pos st) (dec_reference data version pos st').
Proof.
  intros In R. unfold dec_reference. apply sim_pure. intros [id p] _. rewrite (proj1 R). destruct (negb _); [apply sim_err|].
  destruct (nth_error (ds_log st) (N.to_nat id)) as [v|] eqn:E; [|apply sim_err].
  assert (V : valid (ds_heap st) v) by (destruct In as [_ F]; rewrite Forall_forall in F; apply F; eapply nth_error_In; eauto).
  destruct v; try (apply sim_ok; auto; fail). cbn in V.
  destruct (nth_error (ds_heap st) oid) as [x|] eqn:Ex; [|apply nth_error_None in Ex; lia].
  destruct (Forall2_nth _ _ _ (proj2 R) _ _ Ex) as (x' & Ex' & C). rewrite Ex'. apply crel_hsame in C.
  assert (is_buffer x' = is_buffer x) as -> by (destruct C as [->|[A B]]; auto; destruct x, x'; try discriminate; reflexivity).
  destruct (is_buffer x) eqn:B; [|apply sim_ok; auto]. apply maybe_view_sim; eauto.
Qed.
Ltac leaf_sim_tac :=
  first [ apply sim_err
        | apply sim_ok; assumption
        | unfold dec_wrapped; apply sim_ok; apply rel_record; assumption
        | apply sim_pure; intros [? ?] _; leaf_sim_tac ].
Lemma leaf_sim f t pos st st' : inv st -> rel st st' -> leaf t -> sim same st (dec cfg data version (S f) t pos st) (dec cfg data version 1 t pos st').
Proof.
  intros In R Leaf. destruct t; try contradiction; cbn [dec]; try solve [leaf_sim_tac].
  - apply reference_sim; auto.
  - unfold dec_date. apply sim_pure. intros [b p] _. destruct (c_date cfg b); [|apply sim_err]. rewrite !alloc_rec_begun. apply sim_begun; cbn; auto.
  - unfold dec_buffer_plain. apply sim_pure. intros [n p] _. destruct (negb _); [apply sim_err|]. apply sim_pure. intros b E.
    rewrite !alloc_rec_begun. apply begun_view_sim; cbn; auto. eapply jsbuf_writable; eauto.
  - unfold dec_buffer_resizable. apply sim_pure. intros [n p] _. destruct (negb _); [apply sim_err|]. apply sim_pure. intros [mx p2] _.
    destruct (_ <? _)%N; [apply sim_err|]. apply sim_pure. intros b E.
    rewrite !alloc_rec_begun. apply begun_view_sim; cbn; auto. eapply jsbuf_writable; eauto.
  - apply buffer_id_sim; cbn; auto.
  - apply buffer_id_sim; cbn; auto.
  - apply sim_pure. intros [n p] _. rewrite !alloc_rec_begun. apply sim_begun; cbn; auto.
  - destruct (c_host cfg); [|apply sim_err]. unfold dec_host. apply sim_pure. intros [code p] _. apply sim_pure. intros [n p2] _.
    destruct (node_format code) as [vt|]; [|apply sim_err]. destruct (negb _); [apply sim_err|]. apply sim_pure. intros b E. cbn [alloc].
    apply sim_pure. intros w _.
    pose proof (inv_alloc (OBuffer b) st In (jsbuf_writable _ _ _ _ E)) as I1.
    pose proof (rel_alloc (OBuffer b) (OBuffer b) st st' In R eq_refl) as R1.
    pose proof (rel_alloc (OView (length (ds_heap st)) w) (OView (length (ds_heap st)) w) _ _ I1 R1 eq_refl) as R2.
    cbn [alloc snd ds_heap ds_log] in *.
    rewrite !app_length. cbn [length ds_heap]. rewrite (rel_len _ _ R). apply sim_ok. exact R2.
Qed.

Section RecSim.
Variable rec rec' : reader.
Hypothesis Rec : forall t p st, inv st -> done valid st (rec t p st).
Hypothesis RecSim : forall t p st st', inv st -> rel st st' -> sim same st (rec t p st) (rec' t p st').
Lemma value_sim pos st st' : inv st -> rel st st' -> sim same st (dec_value data rec pos st) (dec_value data rec' pos st').
Proof. intros In R. apply sim_pure. intros [t p] _. apply RecSim; auto. Qed.
Lemma string_sim pos st st' : inv st -> rel st st' -> sim same st (dec_string data rec pos st) (dec_string data rec' pos st').
Proof.
  intros In R. apply sim_pure. intros [t p] _. destruct (negb _); [apply sim_err|].
  eapply sim_bind with (P := valid) (P2 := anything); [apply Rec; auto|apply RecSim; auto| |].
  - intros v q s2 I2 V. destruct v; try apply done_err. apply done_ok; [auto|apply keeps_refl|exact Logic.I].
  - intros v q v' s2 s2' I2 V R2 E. cbn in E. red in E. subst v'. destruct v; try apply sim_err. apply sim_ok; auto.
Qed.
Lemma field_sim fd e pos st st' : inv st -> rel st st' -> sim same st (dec_field data rec fd e pos st) (dec_field data rec' fd e pos st').
Proof.
  intros In R. unfold dec_field. destruct (etag_beq e fd); [|apply sim_ok; auto].
  eapply sim_bind with (P := anything) (P2 := anything); [apply string_done; auto|apply string_sim; auto| |].
  - intros v q s2 I2 V. apply done_pure. intros [e2 p2] _. apply done_ok; [auto|apply keeps_refl|exact Logic.I].
  - intros v q v' s2 s2' I2 V R2 E. red in E. subst v'. apply sim_pure. intros [e2 p2] _. apply sim_ok; auto.
Qed.
Lemma regexp_sim pos st st' : inv st -> rel st st' -> sim same st (dec_regexp data rec pos st) (dec_regexp data rec' pos st').
Proof.
  intros In R. unfold dec_regexp.
  assert (Rg : forall s f o, regexp_new s f = Ok o -> exists a b, o = ORegExp a b).
  { intros s f o Eo. unfold regexp_new in Eo. destruct (_ && _); [discriminate|]. injection Eo as <-. eauto. }
  eapply sim_bind with (P := anything) (P2 := valid); [apply string_done; auto|apply string_sim; auto| |].
  - intros v q s2 I2 V. apply done_pure. intros [e2 p2] _. apply done_pure. intros o Eo. rewrite alloc_rec_begun. apply Rg in Eo as (a & b & ->). apply begun_done; cbn; auto.
  - intros v q v' s2 s2' I2 V R2 E. red in E. subst v'. apply sim_pure. intros [e2 p2] _. apply sim_pure. intros o Eo. rewrite !alloc_rec_begun.
    apply Rg in Eo as (a & b & ->). apply sim_begun; cbn; auto.
Qed.

(** One assignment *)
Lemma unhashable_ref h k : hashable h k = false -> exists o, k = VRef o.
Proof.
  unfold hashable, dkey. rewrite hash_S. destruct k; try discriminate; eauto. unfold hnumber. destruct (canon z 0). discriminate.
Qed.
Lemma property_hashable h k : property_key k = true -> hashable h k = true.
Proof. intros P. destruct (hashable h k) eqn:E; auto. apply unhashable_ref in E as [o ->]. discriminate. Qed.
Lemma dset_has {V} (s : svz) (x : V) d : exists s', svz_eqb s s' = true /\ In (s', x) (dset svz_eqb s x d).
Proof.
  induction d as [|[a w] d (s' & E & J)]; cbn; [exists s; split; [apply svz_eqb_spec; auto|auto]|].
  destruct (svz_eqb s a) eqn:Ea; [exists a; cbn; auto|]. exists s'. cbn. auto.
Qed.
Lemma dset_keeps {V} (s s' : svz) (x y : V) d : In (s', y) d -> svz_eqb s s' = false -> In (s', y) (dset svz_eqb s x d).
Proof.
  induction d as [|[a w] d IH]; cbn; auto. intros [[= <- <-]|J] E; [rewrite E; cbn; auto|]. destruct (svz_eqb s a); cbn; auto.
Qed.
Lemma svz_ref k o : same_value_zero no_bytes k = Ok (SId o) -> k = VRef o.
Proof.
  destruct k; cbn; try discriminate.
  - destruct (float_overflows z); [discriminate|]. unfold num_key. destruct (canon z 0). discriminate.
  - unfold num_key. destruct (ieee bits); try discriminate. destruct (canon _ _). discriminate.
  - intros [= ->]. reflexivity.
Qed.
Lemma put_unusable h x k v y : put cfg x k v = Ok y -> unusable h x -> unusable h y.
Proof.
  intros E U. destruct x; try contradiction; [|discriminate E]. cbn in E. unfold jm_set in E.
  destruct (same_value_zero no_bytes k) as [s|] eqn:Es; cbn in E; [|discriminate]. injection E as <-.
  destruct U as (A & o & w & J & U). split; auto. destruct (svz_eqb s (SId o)) eqn:Eq.
  - apply svz_eqb_spec in Eq. subst s. pose proof (svz_ref _ _ Es) as ->. destruct (dset_has (SId o) (VRef o, v) m) as (s' & E' & J').
    apply svz_eqb_spec in E'. subst s'. exists o, v. auto.
  - exists o, w. split; auto. apply dset_keeps; auto.
Qed.
Lemma tput_sim st st' acc acc' k v acc2 : inv st -> rel st st' -> filling (ds_heap st) acc -> crel (ds_heap st) acc acc' -> valid (ds_heap st) k ->
  key_ok acc k = true -> put cfg acc k v = Ok acc2 ->
  (exists acc2', tput cfg (ds_heap st') acc' k v = Ok acc2' /\ crel (ds_heap st) acc2 acc2') \/
  (tput cfg (ds_heap st') acc' k v = Err EType /\ unusable (ds_heap st) acc2).
Proof.
  intros In R F C V Ko E. pose proof (put_kind _ _ _ _ E) as Kd. pose proof (rel_hgrows _ _ R) as G.
  assert (Put : filled_with (ds_heap st) acc acc' -> hashable (ds_heap st) k = true ->
    exists acc2', tput cfg (ds_heap st') acc' k v = Ok acc2' /\ filled_with (ds_heap st) acc2 acc2').
  { intros (ps & A & B & ->) Ha. cbn [tput]. rewrite (hashable_stable _ _ _ G (proj1 In) V), Ha. eexists. split; [reflexivity|].
    exists (ps ++ [(k, v)]). split; [apply Forall_app; split; auto|]. split.
    - rewrite put_all_snoc. assert (empty_of acc2 = empty_of acc) as -> by (destruct acc, acc2; try contradiction; reflexivity). rewrite B. exact E.
    - rewrite pyd_snoc. f_equal. apply dict_put_ext; [apply dkey_stable; auto; apply In|]. apply Forall_forall. intros p J. apply (in_map fst), pyd_keys in J.
      apply in_map_iff in J as (q & Eq & J). rewrite Forall_forall in A. apply A in J as [Vq _]. rewrite <- Eq. apply dkey_stable; auto; apply In. }
  assert (Same : match acc with ODict _ => False | _ => True end -> tput cfg (ds_heap st') acc k v = Ok acc2).
  { destruct acc; try contradiction; intros _; exact E. }
  destruct acc; try (destruct F as [_ F]; contradiction); destruct acc2; try contradiction; cbn [crel] in *.
  - destruct (t_map T) eqn:Tm; [|subst acc'; left; eexists; split; [apply Same; exact Logic.I|reflexivity]].
    destruct (hashable (ds_heap st) k) eqn:Ha; [left; auto|]. right. destruct C as (ps & _ & _ & ->). cbn [tput].
    rewrite (hashable_stable _ _ _ G (proj1 In) V), Ha. split; auto. split; auto. destruct (unhashable_ref _ _ Ha) as [o ->].
    cbn in E. injection E as <-. destruct (dset_has (SId o) (VRef o, v) m) as (s' & E' & J'). apply svz_eqb_spec in E'. subst s'. exists o, v. auto.
  - left. destruct (t_object T) eqn:Tm; [|subst acc'; eexists; split; [apply Same; exact Logic.I|reflexivity]]. apply Put; auto. apply property_hashable. exact Ko.
  - left. destruct (t_array T) eqn:Tm; [|subst acc'; eexists; split; [apply Same; exact Logic.I|reflexivity]]. apply Put; auto. apply property_hashable. exact Ko.
Qed.

(** The loops *)
Lemma pairs_unusable is_key endt : forall fuel pos acc n st acc2 n2 p2 st2, inv st -> filling (ds_heap st) acc -> unusable (ds_heap st) acc ->
  dec_pairs cfg data rec is_key endt fuel pos acc n st = Ok (acc2, n2, p2, st2) -> unusable (ds_heap st2) acc2.
Proof.
  induction fuel as [|fuel IH]; intros pos acc n st acc2 n2 p2 st2 In F U; [discriminate|]. cbn [dec_pairs].
  destruct (read_tag data pos) as [[t p]|e]; cbn [bind]; [|discriminate]. destruct (stag_eqb t endt); [intros [= <- <- <- <-]; auto|].
  destruct (is_key t); [|discriminate]. pose proof (Rec t p st In) as D. destruct (rec t p st) as [[[k q] s1]|e]; cbn [bind]; [|discriminate].
  destruct (D _ _ _ eq_refl) as (I1 & K1 & V1). destruct (negb _); [discriminate|].
  pose proof (value_done rec Rec q s1 I1) as D2. destruct (dec_value data rec q s1) as [[[v q2] s2]|e]; cbn [bind]; [|discriminate].
  destruct (D2 _ _ _ eq_refl) as (I2 & K2 & V2). destruct (put cfg acc k v) as [acc1|e] eqn:Ep; cbn [bind]; [|discriminate].
  assert (G : hgrows (ds_heap st) (ds_heap s2)) by (apply keeps_hgrows; eapply keeps_trans; eauto).
  apply IH; auto.
  - eapply put_filling; eauto; [eapply filling_grows; eauto|]. eapply valid_grows; [apply keeps_hgrows; eauto|auto].
  - eapply put_unusable; eauto. eapply unusable_grows; eauto. apply In.
Qed.
Lemma pairs_sim is_key ko endt : forall fuel pos acc acc' n st st' acc2 n2 p2 st2, inv st -> rel st st' -> filling (ds_heap st) acc -> crel (ds_heap st) acc acc' ->
  (forall k, ko k = key_ok acc k) ->
  dec_pairs cfg data rec is_key endt fuel pos acc n st = Ok (acc2, n2, p2, st2) ->
  (exists acc2' st2', tdec_pairs cfg data rec' is_key ko endt fuel pos acc' n st' = Ok (acc2', n2, p2, st2') /\ rel st2 st2' /\ crel (ds_heap st2) acc2 acc2') \/
  (tdec_pairs cfg data rec' is_key ko endt fuel pos acc' n st' = Err EType /\ (bad st st2 \/ unusable (ds_heap st2) acc2)).
Proof.
  induction fuel as [|fuel IH]; intros pos acc acc' n st st' acc2 n2 p2 st2 In R F C Ko; [discriminate|]. cbn [dec_pairs tdec_pairs].
  destruct (read_tag data pos) as [[t p]|e]; cbn [bind]; [|discriminate].
  destruct (stag_eqb t endt); [intros [= <- <- <- <-]; left; eauto|].
  destruct (is_key t); [|discriminate]. pose proof (Rec t p st In) as D. pose proof (RecSim t p st st' In R) as S1.
  destruct (rec t p st) as [[[k q] s1]|e]; cbn [bind]; [|discriminate].
  destruct (D _ _ _ eq_refl) as (I1 & K1 & V1). destruct (negb (key_ok acc k)) eqn:Nk; [discriminate|].
  pose proof (value_done rec Rec q s1 I1) as D2. pose proof (fun s1' => value_sim q s1 s1' I1) as S2.
  destruct (dec_value data rec q s1) as [[[v q2] s2]|e]; cbn [bind]; [|discriminate].
  destruct (D2 _ _ _ eq_refl) as (I2 & K2 & V2). destruct (put cfg acc k v) as [acc1|e] eqn:Ep; cbn [bind]; [|discriminate]. intros E.
  assert (G : hgrows (ds_heap st) (ds_heap s2)) by (apply keeps_hgrows; eapply keeps_trans; eauto).
  assert (F2 : filling (ds_heap s2) acc) by (eapply filling_grows; eauto).
  assert (V3 : valid (ds_heap s2) k) by (eapply valid_grows; [apply keeps_hgrows; eauto|auto]).
  assert (F3 : filling (ds_heap s2) acc1) by (eapply put_filling; eauto).
  destruct (pairs_done rec Rec is_key endt fuel q2 acc1 (n + 1)%N s2 I2 F3 _ _ _ E) as (I4 & K4 & _).
  destruct (S1 _ _ _ eq_refl) as [(k' & s1' & -> & R1 & Q1)|[-> B1]]; cbn [bind];
    [|right; split; auto; left; exact (bad_after _ _ _ I1 B1 (keeps_trans _ _ _ K2 K4))].
  red in Q1. subst k'. rewrite Ko, Nk.
  destruct (S2 _ R1 _ _ _ eq_refl) as [(v' & s2' & -> & R2 & Q2)|[-> B2]]; cbn [bind];
    [|right; split; auto; left; exact (bad_before _ _ _ K1 (bad_after _ _ _ I2 B2 K4))].
  red in Q2. subst v'. apply negb_false_iff in Nk.
  destruct (tput_sim s2 s2' acc acc' k v acc1 I2 R2 F2 (crel_grows _ _ _ _ G (proj1 In) C) V3 Nk Ep) as [(acc1' & -> & C1)|[-> U]]; cbn [bind].
  - assert (Ko' : forall j, ko j = key_ok acc1 j) by (intros j; rewrite Ko; pose proof (put_kind _ _ _ _ Ep); destruct acc, acc1; try contradiction; reflexivity).
    destruct (IH _ _ _ _ _ _ _ _ _ _ I2 R2 F3 C1 Ko' E) as [X|[-> [B|U]]]; [left; exact X| |]; right; split; auto.
    left. exact (bad_before _ _ _ (keeps_trans _ _ _ K1 K2) B).
  - right. split; auto. right. exact (pairs_unusable _ _ _ _ _ _ _ _ _ _ _ I2 F3 U E).
Qed.
Lemma elems_sim : forall fuel count i pos acc acc' st st' acc2 p2 st2, inv st -> rel st st' -> filling (ds_heap st) acc -> crel (ds_heap st) acc acc' ->
  kind (OArray jo_empty) acc ->
  dec_elems cfg data rec fuel count i pos acc st = Ok (acc2, p2, st2) ->
  (exists acc2' st2', tdec_elems cfg data rec' fuel count i pos acc' st' = Ok (acc2', p2, st2') /\ rel st2 st2' /\ crel (ds_heap st2) acc2 acc2') \/
  (tdec_elems cfg data rec' fuel count i pos acc' st' = Err EType /\ bad st st2).
Proof.
  induction fuel as [|fuel IH]; intros count i pos acc acc' st st' acc2 p2 st2 In R F C Ka; cbn [dec_elems tdec_elems]; destruct (i =? count)%N;
    try discriminate; try (intros [= <- <- <-]; left; eauto; fail).
  pose proof (value_done rec Rec pos st In) as D2. pose proof (value_sim pos st st' In R) as S2.
  destruct (dec_value data rec pos st) as [[[v q2] s2]|e]; cbn [bind]; [|discriminate].
  destruct (D2 _ _ _ eq_refl) as (I2 & K2 & V2). destruct (put cfg acc _ v) as [acc1|e] eqn:Ep; cbn [bind]; [|discriminate]. intros E.
  assert (G : hgrows (ds_heap st) (ds_heap s2)) by (apply keeps_hgrows; auto).
  assert (F2 : filling (ds_heap s2) acc) by (eapply filling_grows; eauto).
  assert (F3 : filling (ds_heap s2) acc1) by (eapply put_filling; eauto; exact Logic.I).
  destruct (elems_done rec Rec fuel count (i + 1)%N q2 acc1 s2 I2 F3 _ _ _ E) as (I4 & K4 & _).
  destruct (S2 _ _ _ eq_refl) as [(v' & s2' & -> & R2 & Q2)|[-> B2]]; cbn [bind];
    [|right; split; auto; exact (bad_after _ _ _ I2 B2 K4)].
  red in Q2. subst v'. pose proof (put_kind _ _ _ _ Ep) as Kd.
  assert (Ka1 : kind (OArray jo_empty) acc1) by (destruct acc; try contradiction; destruct acc1; try contradiction; exact Logic.I).
  assert (Nk : key_ok acc (VInt (Z.of_N i)) = true) by (destruct acc; try contradiction; reflexivity).
  destruct (tput_sim s2 s2' acc acc' (VInt (Z.of_N i)) v acc1 I2 R2 F2 (crel_grows _ _ _ _ G (proj1 In) C) Logic.I Nk Ep) as [(acc1' & -> & C1)|[-> U]]; cbn [bind].
  - destruct (IH _ _ _ _ _ _ _ _ _ _ I2 R2 F3 C1 Ka1 E) as [X|[-> B]]; [left; exact X|]. right. split; auto. exact (bad_before _ _ _ K2 B).
  - destruct acc1; contradiction.
Qed.

(** The containers *)
Lemma finish_sim st st' x st2 st2' y y' p : inv st -> rel st st' -> is_open x = true -> inv st2 -> keeps (begun x st) st2 -> is_open y = true -> rel st2 st2' ->
  crel (ds_heap st2) y y' -> exists v' s', (Ok (VRef (length (ds_heap st')), p, store (length (ds_heap st')) y' st2') : dres val) = Ok (v', p, s') /\
    rel (store (length (ds_heap st)) y st2) s' /\ v' = VRef (length (ds_heap st)).
Proof.
  intros In R Ox I2 K2 Oy R2 C. rewrite (rel_len _ _ R). do 2 eexists. split; [reflexivity|]. split; auto.
  exact (rel_store _ _ _ _ _ _ I2 R2 (begun_kept _ _ _ K2) Ox Oy C).
Qed.
Lemma new_map_crel h : crel h (OMap []) (new_map T).
Proof. cbn. unfold new_map. destruct (t_map T); auto. exists []. repeat split; constructor. Qed.
Lemma new_object_crel h : crel h (OObject jo_empty) (new_object T).
Proof. cbn. unfold new_object. destruct (t_object T); auto. exists []. repeat split; constructor. Qed.
Lemma new_array_crel h : crel h (OArray jo_empty) (new_array T).
Proof. cbn. unfold new_array. destruct (t_array T); auto. exists []. repeat split; constructor. Qed.
Lemma map_sim fuel pos st st' : inv st -> rel st st' -> sim same st (dec_map cfg data rec fuel pos st) (tdec_map T cfg data rec' fuel pos st').
Proof.
  intros In R v p s. unfold dec_map, tdec_map. rewrite !alloc_rec_begun.
  assert (I1 : inv (begun (OMap []) st)) by (apply inv_begun; cbn; auto).
  pose proof (rel_begun _ _ _ _ In R (new_map_crel _)) as R1.
  assert (F1 : filling (ds_heap (begun (OMap []) st)) (OMap [])) by (split; [constructor|exact Logic.I]).
  pose proof (pairs_done rec Rec (fun _ => true) kEndJSMap fuel pos (OMap []) 0 _ I1 F1) as D.
  pose proof (fun a n q s => pairs_sim (fun _ => true) (fun _ => true) kEndJSMap fuel pos (OMap []) (new_map T) 0 _ _ a n q s I1 R1 F1 (new_map_crel _) (fun k => eq_refl)) as S1.
  destruct (dec_pairs _ _ _ _ _ _ _ _ _ _) as [[[[acc n] q] s1]|e]; cbn [bind]; [|discriminate]. destruct (D _ _ _ eq_refl) as (I2 & K2 & F & _).
  destruct (check_count data q _) as [q2|e] eqn:Ec; cbn [bind]; [|discriminate]. apply filling_open in F as [Oy G]. intros [= <- <- <-].
  destruct (S1 _ _ _ _ eq_refl) as [(acc' & s1' & -> & R2 & C2)|[-> B]]; cbn [bind].
  - rewrite Ec. cbn [bind]. left. apply (finish_sim st st' (OMap [])); auto.
  - right. split; auto. destruct B as [B|U]; [eapply bad_store; eauto|eapply bad_own; eauto]; reflexivity.
Qed.
Lemma object_sim fuel pos st st' : inv st -> rel st st' -> sim same st (dec_object cfg data rec fuel pos st) (tdec_object T cfg data rec' fuel pos st').
Proof.
  intros In R v p s. unfold dec_object, tdec_object. rewrite !alloc_rec_begun.
  assert (I1 : inv (begun (OObject jo_empty) st)) by (apply inv_begun; cbn; auto).
  pose proof (rel_begun _ _ _ _ In R (new_object_crel _)) as R1.
  assert (F1 : filling (ds_heap (begun (OObject jo_empty) st)) (OObject jo_empty)) by (split; exact Logic.I).
  pose proof (pairs_done rec Rec is_object_key kEndJSObject fuel pos (OObject jo_empty) 0 _ I1 F1) as D.
  pose proof (fun a n q s => pairs_sim is_object_key property_key kEndJSObject fuel pos (OObject jo_empty) (new_object T) 0 _ _ a n q s I1 R1 F1 (new_object_crel _) (fun k => eq_refl)) as S1.
  destruct (dec_pairs _ _ _ _ _ _ _ _ _ _) as [[[[acc n] q] s1]|e]; cbn [bind]; [|discriminate]. destruct (D _ _ _ eq_refl) as (I2 & K2 & F & _).
  destruct (check_count data q _) as [q2|e] eqn:Ec; cbn [bind]; [|discriminate]. apply filling_open in F as [Oy G]. intros [= <- <- <-].
  destruct (S1 _ _ _ _ eq_refl) as [(acc' & s1' & -> & R2 & C2)|[-> B]]; cbn [bind].
  - rewrite Ec. cbn [bind]. left. apply (finish_sim st st' (OObject jo_empty)); auto.
  - right. split; auto. destruct B as [B|U]; [eapply bad_store; eauto|eapply bad_own; eauto]; reflexivity.
Qed.
Lemma kind_trans x y z : kind x y -> kind y z -> kind x z.
Proof. destruct x, y; try contradiction; destruct z; auto. Qed.
Lemma array_key acc k : kind (OArray jo_empty) acc -> property_key k = key_ok acc k.
Proof. destruct acc; try contradiction; reflexivity. Qed.
Lemma dense_sim fuel pos st st' : inv st -> rel st st' -> sim same st (dec_dense cfg data rec fuel pos st) (tdec_dense T cfg data rec' fuel pos st').
Proof.
  intros In R v p s. unfold dec_dense, tdec_dense. rewrite !alloc_rec_begun.
  assert (I1 : inv (begun (OArray jo_empty) st)) by (apply inv_begun; cbn; auto).
  pose proof (rel_begun _ _ _ _ In R (new_array_crel _)) as R1.
  assert (F1 : filling (ds_heap (begun (OArray jo_empty) st)) (OArray jo_empty)) by (split; exact Logic.I).
  destruct (read_varint data pos 0) as [[count q0]|e]; cbn [bind]; [|discriminate].
  pose proof (elems_done rec Rec fuel count 0 q0 (OArray jo_empty) _ I1 F1) as D0.
  pose proof (fun a q s => elems_sim fuel count 0 q0 (OArray jo_empty) (new_array T) _ _ a q s I1 R1 F1 (new_array_crel _) Logic.I) as S0.
  destruct (dec_elems _ _ _ _ _ _ _ _ _) as [[[acc0 q1] s0]|e]; cbn [bind]; [|discriminate]. destruct (D0 _ _ _ eq_refl) as (I0 & K0 & F0 & Kd0).
  pose proof (pairs_done rec Rec is_object_key kEndDenseJSArray fuel q1 acc0 0 _ I0 F0) as D.
  pose proof (fun acc' s0' a n q s R0 C0 => pairs_sim is_object_key property_key kEndDenseJSArray fuel q1 acc0 acc' 0 _ s0' a n q s I0 R0 F0 C0 (fun k => array_key _ k Kd0)) as S1.
  destruct (dec_pairs _ _ _ _ _ _ _ _ _ _) as [[[[acc n] q] s1]|e]; cbn [bind]; [|discriminate]. destruct (D _ _ _ eq_refl) as (I2 & K2 & F & _).
  destruct (check_count data q _) as [q2|e] eqn:Ec; cbn [bind]; [|discriminate]. destruct (check_count data q2 _) as [q3|e] eqn:Ec2; cbn [bind]; [|discriminate].
  apply filling_open in F as [Oy G]. intros [= <- <- <-].
  destruct (S0 _ _ _ eq_refl) as [(acc0' & s0' & -> & R0 & C0)|[-> B]]; cbn [bind].
  - destruct (S1 acc0' s0' _ _ _ _ R0 C0 eq_refl) as [(acc' & s1' & -> & R2 & C2)|[-> B]]; cbn [bind].
    + rewrite Ec. cbn [bind]. rewrite Ec2. cbn [bind]. left. apply (finish_sim st st' (OArray jo_empty)); auto. eapply keeps_trans; eauto.
    + right. split; auto. destruct B as [B|U]; [|eapply bad_own; [auto|eapply keeps_trans; eauto|reflexivity|auto|auto]].
      eapply bad_store; [auto|eapply keeps_trans; eauto|reflexivity|auto|]. exact (bad_before _ _ _ K0 B).
  - right. split; auto. eapply bad_store; [auto|eapply keeps_trans; eauto|reflexivity|auto|]. exact (bad_after _ _ _ I0 B K2).
Qed.
Lemma sparse_sim fuel pos st st' : inv st -> rel st st' -> sim same st (dec_sparse cfg data rec fuel pos st) (tdec_sparse T cfg data rec' fuel pos st').
Proof.
  intros In R v p s. unfold dec_sparse, tdec_sparse. rewrite !alloc_rec_begun.
  assert (I1 : inv (begun (OArray jo_empty) st)) by (apply inv_begun; cbn; auto).
  pose proof (rel_begun _ _ _ _ In R (new_array_crel _)) as R1.
  assert (F1 : filling (ds_heap (begun (OArray jo_empty) st)) (OArray jo_empty)) by (split; exact Logic.I).
  destruct (read_varint data pos 0) as [[len q0]|e]; cbn [bind]; [|discriminate].
  destruct (if (0 <? len)%N then put _ _ _ _ else _) as [acc0|e] eqn:Ea; cbn [bind]; [|discriminate].
  assert (X : exists acc0', (if (0 <? len)%N then tput cfg (ds_heap (begun (new_array T) st')) (new_array T) (VInt (Z.of_N len - 1)) VHole else Ok (new_array T)) = Ok acc0' /\
    crel (ds_heap (begun (OArray jo_empty) st)) acc0 acc0' /\ filling (ds_heap (begun (OArray jo_empty) st)) acc0 /\ kind (OArray jo_empty) acc0).
  { destruct (0 <? len)%N; [|injection Ea as <-; exists (new_array T); split; auto; split; [apply new_array_crel|split; [auto|exact Logic.I]]].
    pose proof (put_kind _ _ _ _ Ea) as Kd.
    destruct (tput_sim _ _ _ _ _ _ _ I1 R1 F1 (new_array_crel _) (Logic.I : valid _ (VInt _)) eq_refl Ea) as [(a & Et & C)|[_ U]].
    - exists a. split; auto. split; auto. split; auto. eapply put_filling; eauto; exact Logic.I.
    - destruct acc0; contradiction. }
  destruct X as (acc0' & -> & C0 & F0 & Kd0). cbn [bind].
  pose proof (pairs_done rec Rec is_object_key kEndSparseJSArray fuel q0 acc0 0 _ I1 F0) as D.
  pose proof (fun a n q s => pairs_sim is_object_key property_key kEndSparseJSArray fuel q0 acc0 acc0' 0 _ _ a n q s I1 R1 F0 C0 (fun k => array_key _ k Kd0)) as S1.
  destruct (dec_pairs _ _ _ _ _ _ _ _ _ _) as [[[[acc n] q] s1]|e]; cbn [bind]; [|discriminate]. destruct (D _ _ _ eq_refl) as (I2 & K2 & F & _).
  destruct (check_count data q _) as [q2|e] eqn:Ec; cbn [bind]; [|discriminate]. destruct (check_count data q2 _) as [q3|e] eqn:Ec2; cbn [bind]; [|discriminate].
  apply filling_open in F as [Oy G]. intros [= <- <- <-].
  destruct (S1 _ _ _ _ eq_refl) as [(acc' & s1' & -> & R2 & C2)|[-> B]]; cbn [bind].
  - rewrite Ec. cbn [bind]. rewrite Ec2. cbn [bind]. left. apply (finish_sim st st' (OArray jo_empty)); auto.
  - right. split; auto. destruct B as [B|U]; [eapply bad_store; eauto|eapply bad_own; eauto]; reflexivity.
Qed.
Lemma members_sim : forall fuel pos acc n st st', inv st -> rel st st' -> is_set acc ->
  sim same st (dec_members data rec fuel pos acc n st) (dec_members data rec' fuel pos acc n st').
Proof.
  induction fuel as [|fuel IH]; intros pos acc n st st' In R F; [apply sim_err|]. cbn [dec_members]. apply sim_pure. intros [t p] _.
  destruct (stag_eqb t kEndJSSet); [apply sim_ok; auto|].
  assert (St : forall v a, put_member acc v = Ok a -> is_set a).
  { intros v a E. destruct acc; try contradiction. cbn in E. destruct (js_add _ _ _); cbn in E; [injection E as <-; exact Logic.I|discriminate]. }
  eapply sim_bind with (P := valid); [apply Rec; auto|apply RecSim; auto| |].
  - intros v q s2 I2 V. apply done_pure. intros a Ea. apply (members_done rec Rec); auto. eapply St; eauto.
  - intros v q v' s2 s2' I2 V R2 E. red in E. subst v'. apply sim_pure. intros a Ea. apply IH; auto. eapply St; eauto.
Qed.
Lemma set_sim fuel pos st st' : inv st -> rel st st' -> sim same st (dec_set data rec fuel pos st) (tdec_set T data rec' fuel pos st').
Proof.
  intros In R v p s. unfold tdec_set, dec_set. rewrite !alloc_rec_begun. destruct (t_set T) eqn:Ts.
  { pose proof (set_done rec Rec fuel pos st In) as D0. unfold dec_set in D0. rewrite alloc_rec_begun in D0.
    assert (I1 : inv (begun (OSet []) st)) by (apply inv_begun; cbn; auto).
    pose proof (members_done rec Rec fuel pos (OSet []) 0 _ I1 Logic.I) as D.
    destruct (dec_members data rec _ _ _ _ _) as [[[[acc n] q] s1]|e]; cbn [bind]; [|discriminate]. destruct (D _ _ _ eq_refl) as (I2 & K2 & F).
    destruct (check_count data q _) as [q2|e] eqn:Ec; cbn [bind]; [|discriminate]. intros [= <- <- <-]. cbn in F. destruct acc; try contradiction.
    right; split; auto; eapply bad_own; eauto. }
  assert (I1 : inv (begun (OSet []) st)) by (apply inv_begun; cbn; auto).
  pose proof (rel_begun (OSet []) (OSet []) _ _ In R (conj Ts eq_refl)) as R1.
  pose proof (members_done rec Rec fuel pos (OSet []) 0 _ I1 Logic.I) as D.
  pose proof (members_sim fuel pos (OSet []) 0 _ _ I1 R1 Logic.I) as S1.
  destruct (dec_members data rec _ _ _ _ _) as [[[[acc n] q] s1]|e]; cbn [bind]; [|discriminate]. destruct (D _ _ _ eq_refl) as (I2 & K2 & F).
  destruct (check_count data q _) as [q2|e] eqn:Ec; cbn [bind]; [|discriminate]. intros [= <- <- <-]. cbn in F. destruct acc; try contradiction.
  destruct (S1 _ _ _ eq_refl) as [([acc' n'] & s1' & -> & R2 & C2)|[-> B]]; cbn [bind].
  - red in C2. injection C2 as -> ->. rewrite Ec. cbn [bind]. left. apply (finish_sim st st' (OSet [])); auto. split; auto.
  - right. split; auto. eapply bad_store; eauto.
Qed.
Lemma error_sim pos st st' : inv st -> rel st st' -> sim same st (dec_error data rec pos st) (tdec_error T data rec' pos st').
Proof.
  intros In R v0 p0 s0. unfold dec_error, tdec_error. destruct (read_error_tag data pos) as [[e p]|er]; cbn [bind]; [|discriminate].
  destruct (if ename_beq _ _ then _ else _) as [[e2 p2]|er]; cbn [bind]; [|discriminate].
  pose proof (field_done rec Rec eMessage e2 p2 st In) as D1. pose proof (field_sim eMessage e2 p2 st st' In R) as S1.
  destruct (dec_field data rec _ _ p2 _) as [[[[m e3] q] st2]|er]; cbn [bind]; [|discriminate]. destruct (D1 _ _ _ eq_refl) as (I2 & K2 & _).
  pose proof (field_done rec Rec eStack e3 q st2 I2) as D2. pose proof (fun st2' => field_sim eStack e3 q st2 st2' I2) as S2.
  destruct (dec_field data rec _ _ q _) as [[[[sk e4] q4] st4]|er]; cbn [bind]; [|discriminate]. destruct (D2 _ _ _ eq_refl) as (I4 & K4 & _).
  rewrite !alloc_rec_begun. set (x := OError _ _ _ VNone).
  assert (I5 : inv (begun x st4)) by (apply inv_begun; cbn; auto).
  set (dc := if etag_beq e4 eCause then _ else _).
  assert (D3 : done anything (begun x st4) dc).
  { unfold dc. destruct (etag_beq e4 eCause); [|apply done_ok; [auto|apply keeps_refl|exact Logic.I]].
    eapply done_bind; [apply value_done; auto|]. intros c q5 st5 I6 K6 V6. apply done_pure. intros [e5 p5] _. apply done_ok; [auto|apply keeps_refl|exact Logic.I]. }
  set (x' := fun msg => OError (ename_str (for_error_tag e)) msg sk VNone).
  assert (S3 : forall msg st4', rel (begun x st4) (begun (x' msg) st4') ->
    sim same (begun x st4) dc (if etag_beq e4 eCause then
       do '(c, p, st) <- dec_value data rec' q4 (begun (x' msg) st4'); do '(e, p) <- read_error_tag data p; Ok (c, e, p, st) else Ok (VNone, e4, q4, begun (x' msg) st4'))).
  { intros msg st4' R4. unfold dc. destruct (etag_beq e4 eCause); [|apply sim_ok; auto].
    eapply sim_bind with (P := valid) (P2 := anything); [apply value_done; auto|apply value_sim; auto| |].
    - intros c q5 st5 I6 V6. apply done_pure. intros [e5 p5] _. apply done_ok; [auto|apply keeps_refl|exact Logic.I].
    - intros c q5 c' st5 st5' I6 V6 R6 E6. red in E6. subst c'. apply sim_pure. intros [e5 p5] _. apply sim_ok; auto. }
  destruct dc as [[[[c e5] p5] st5]|er]; cbn [bind]; [|discriminate]. destruct (D3 _ _ _ eq_refl) as (I7 & K7 & _).
  set (ds := match sk with Some _ => _ | None => _ end).
  assert (D4 : done anything st5 ds).
  { unfold ds. destruct sk; [apply done_ok; [auto|apply keeps_refl|exact Logic.I]|]. apply field_done; auto. }
  assert (S4 : forall st5', rel st5 st5' -> sim same st5 ds (match sk with Some _ => Ok (sk, e5, p5, st5') | None => dec_field data rec' eStack e5 p5 st5' end)).
  { intros st5' R5. unfold ds. destruct sk; [apply sim_ok; auto|]. apply field_sim; auto. }
  destruct ds as [[[[sk2 e6] p7] st7]|er]; cbn [bind]; [|discriminate]. destruct (D4 _ _ _ eq_refl) as (I8 & K8 & _).
  destruct (etag_beq e6 eEnd) eqn:Ee; [|discriminate]. intros [= <- <- <-].
  set (y := OError _ _ sk2 c).
  assert (Kf : keeps (begun x st4) st7) by (eapply keeps_trans; eauto).
  assert (Kz : keeps st4 (store (length (ds_heap st4)) y st7)) by (apply keeps_store; eapply keeps_trans; [apply keeps_begun|eauto]).
  destruct (S1 _ _ _ eq_refl) as [([m' e3'] & st2' & -> & R2 & Q1)|[-> B]]; cbn [bind];
    [|right; split; auto; exact (bad_after _ _ _ I2 B (keeps_trans _ _ _ K4 Kz))].
  red in Q1. injection Q1 as -> ->.
  destruct (S2 _ R2 _ _ _ eq_refl) as [([sk' e4'] & st4' & -> & R4 & Q2)|[-> B]]; cbn [bind];
    [|right; split; auto; exact (bad_before _ _ _ K2 (bad_after _ _ _ I4 B Kz))].
  red in Q2. injection Q2 as -> ->. rewrite alloc_rec_begun. cbv beta iota. set (msg' := if t_error T then m else _).
  assert (C : forall sk c, crel (ds_heap st7) (OError (ename_str (for_error_tag e)) (Some (match m with Some m => m | None => [] end)) sk c)
    (OError (ename_str (for_error_tag e)) msg' sk c)).
  { intros sk0 c0. cbn. unfold msg'. destruct (t_error T); auto. exists m. split; auto. }
  assert (C0 : crel (ds_heap st4) x (x' msg')).
  { unfold x, x'. cbn. unfold msg'. destruct (t_error T); auto. exists m. split; auto. }
  pose proof (rel_begun _ _ _ _ I4 R4 C0) as R5.
  destruct (S3 _ _ R5 _ _ _ eq_refl) as [([c' e5'] & st5' & Ex & R6 & Q3)|[Ex B]].
  2:{ match goal with |- _ \/ (bind ?t _ = _ /\ _) => replace t with (@Err (val * etag * nat * dstate) EType) by (symmetry; exact Ex) end. cbn [bind]. right. split; auto. eapply bad_before; [eapply keeps_trans; [exact K2|exact K4]|].
      eapply bad_store; [exact I8|exact Kf|reflexivity|reflexivity|]. exact (bad_after _ _ _ I7 B K8). }
  match goal with |- _ \/ (bind ?t _ = _ /\ _) => replace t with (Ok (c', e5', p5, st5')) by (symmetry; exact Ex) end. cbn [bind]. red in Q3. injection Q3 as -> ->.
  destruct (S4 _ R6 _ _ _ eq_refl) as [([sk2' e6'] & st7' & Ex2 & R7 & Q4)|[Ex2 B]].
  2:{ match goal with |- _ \/ (bind ?t _ = _ /\ _) => replace t with (@Err (option str * etag * nat * dstate) EType) by (symmetry; exact Ex2) end. cbn [bind]. right. split; auto. eapply bad_before; [eapply keeps_trans; [exact K2|exact K4]|].
      eapply bad_store; [exact I8|exact Kf|reflexivity|reflexivity|]. exact (bad_before _ _ _ K7 B). }
  match goal with |- _ \/ (bind ?t _ = _ /\ _) => replace t with (Ok (sk2', e6', p7, st7')) by (symmetry; exact Ex2) end. cbn [bind].
  red in Q4. injection Q4 as -> ->. rewrite Ee. left. apply (finish_sim st4 st4' x); auto; try reflexivity. apply C.
Qed.
End RecSim.

Lemma tdec_sim : forall fuel t pos st st', inv st -> rel st st' -> sim same st (dec cfg data version fuel t pos st) (tdec T cfg data version fuel t pos st').
Proof.
  induction fuel as [|f IH]; intros t pos st st' In R; [apply sim_err|].
  destruct t; try (apply leaf_sim; [assumption|assumption|exact Logic.I]); cbn [dec tdec].
  - apply object_sim; auto. apply dec_done.
  - apply sparse_sim; auto. apply dec_done.
  - apply dense_sim; auto. apply dec_done.
  - apply regexp_sim; auto. apply dec_done.
  - apply map_sim; auto. apply dec_done.
  - apply set_sim; auto. apply dec_done.
  - apply error_sim; auto. apply dec_done.
Qed.
End Readers.

(** loads *)
Lemma inv_empty : inv ds_empty.
Proof. split; constructor. Qed.
Lemma loads_types_sim data v h : loads cfg data = Ok (v, h) ->
  Forall (good_cell h) h /\
  ((exists h', loads_types T cfg data = Ok (v, h') /\ Forall2 (crel h) h h') \/
   (loads_types T cfg data = Err EType /\ exists x, In x h /\ unusable h x)).
Proof.
  unfold loads, loads_at, loads_depth, loads_types, loads_types_at. destruct (read_header data 0) as [[version p]|e]; cbn [bind]; [|discriminate].
  pose proof (value_done data _ (dec_done data version (S (length data))) p ds_empty inv_empty) as D.
  pose proof (value_sim data _ _ (tdec_sim data version (S (length data))) p ds_empty ds_empty inv_empty (conj eq_refl (Forall2_nil _))) as S1.
  destruct (dec_value data (dec _ _ _ _) _ _) as [[[w q] st]|e]; cbn [bind]; [|discriminate]. intros [= -> <-].
  destruct (D _ _ _ eq_refl) as (I1 & _ & _). split; [apply I1|].
  destruct (S1 _ _ _ eq_refl) as [(v' & st' & -> & R & Q)|[-> (i & x & _ & E & U)]]; cbn [bind].
  - red in Q. subst v'. left. exists (ds_heap st'). split; auto. apply R.
  - right. split; auto. exists x. split; auto. eapply nth_error_In; eauto.
Qed.
End Step.
