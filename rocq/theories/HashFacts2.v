(** What a hash key tells about the object hashed. *)
From Coq Require Import List NArith ZArith Bool Lia.
From Verif Require Import Base ModelTags ModelValue ModelBuffer ModelHeap ModelDecode ModelEncode KeyFacts HashFacts.
Import ListNotations.
Open Scope N_scope.

Section Hash.
Variable H : heap.
(** the keys of the items of a tuple *)
Definition hashes (n : nat) (l : list val) : option hkey :=
  fold_right (fun v r => match hash H n v, r with Some k, Some r => Some (HCons k r) | _, _ => None end) (Some HNil) l.
Lemma hashes_cons n v l : hashes n (v :: l) = match hash H n v, hashes n l with Some k, Some r => Some (HCons k r) | _, _ => None end.
Proof. reflexivity. Qed.

Definition key_shape (n o : nat) (k : hkey) (x : obj) : Prop :=
  match k with
  | HNil => x = OSeq true []
  | HCons k1 k2 => exists a l, x = OSeq true (a :: l) /\ hash H n a = Some k1 /\ hashes n l = Some k2
  | HRegExp s f => x = ORegExp s f
  | HPrim t k => exists v, x = OPrim t v /\ hash H n v = Some k
  | HDate d => x = ODate d
  | HBuffer d m r => exists b, x = OBuffer b /\ jb_readonly b = true /\ jb_data b = d /\ jb_max b = m /\ jb_resizable b = r
  | HShared i => x = OShared i
  | HTransfer i => x = OTransfer i
  | HSharedRef i => x = OSharedRef i
  | HBytes d => x = OBytes d
  | HView d ks => exists b w, x = OView b w /\ snd (view_memory (backing_of H b) w) = d /\ item_keys (vw_tag w) (length d) d = Some ks
  | HId o' => o' = o /\ x = OOpaque
  | _ => False
  end.
Lemma hash_ref_inv n o k : hash H (S n) (VRef o) = Some k -> exists x, nth_error H o = Some x /\ key_shape n o k x.
Proof.
  rewrite hash_S. destruct (nth_error H o) as [x|]; [|discriminate]. intros E. exists x. split; auto.
  destruct x; try discriminate; try (injection E as <-; cbn; auto; fail).
  - destruct (hash H n v) eqn:Ev; [|discriminate]. injection E as <-. cbn. eauto.
  - destruct (jb_readonly b) eqn:Rb; [|discriminate]. injection E as <-. cbn. eauto 10.
  - cbv zeta in E. destruct (bk_hashable _) eqn:Rb; [destruct (item_keys _ _ _) eqn:Ik|]; try discriminate. injection E as <-. cbn. eauto 10.
  - destruct tuple; [|discriminate]. change (hashes n l = Some k) in E. destruct l as [|a l]; [injection E as <-; reflexivity|].
    rewrite hashes_cons in E. destruct (hash H n a) eqn:Ea; [|discriminate]. destruct (hashes n l) eqn:El; [|discriminate].
    injection E as <-. cbn. eauto.
Qed.
Lemma hash_prim_kind n v k : (forall o, v <> VRef o) -> hash H n v = Some k -> prim_hkey k = true.
Proof.
  destruct n; [discriminate|]. rewrite hash_S. intros N. destruct v as [| | |b|z|b|s|o]; try (intros [= <-]; reflexivity).
  - intros E. apply hnumber_num in E. destruct k; try contradiction; reflexivity.
  - intros E. apply hnumber_num in E. destruct k; try contradiction; reflexivity.
  - elim (N o). reflexivity.
Qed.

(** More fuel does not change a key. *)
Lemma hash_mono n : forall m v k, (n <= m)%nat -> hash H n v = Some k -> hash H m v = Some k.
Proof.
  induction n as [|n IH]; [discriminate|]. intros m v k L. destruct m as [|m]; [lia|]. rewrite !hash_S.
  destruct v as [| | |b|z|b|s|o]; auto. destruct (nth_error H o) as [x|]; auto. destruct x; auto.
  - destruct (hash H n v) as [k'|] eqn:E; [|discriminate]. rewrite (IH m v k'); auto. lia.
  - destruct tuple; auto. change (hashes n l = Some k -> hashes m l = Some k). revert k. induction l as [|a l IHl]; auto. intros k.
    rewrite !hashes_cons. destruct (hash H n a) as [k'|] eqn:E; [|discriminate]. rewrite (IH m a k') by (auto; lia).
    destruct (hashes n l) as [k2|]; [|discriminate]. rewrite (IHl k2); auto.
Qed.
Lemma hashes_mono n m l k : (n <= m)%nat -> hashes n l = Some k -> hashes m l = Some k.
Proof.
  intros L. revert k. induction l as [|a l IHl]; auto. intros k. rewrite !hashes_cons.
  destruct (hash H n a) as [k'|] eqn:E; [|discriminate]. rewrite (hash_mono n m a k') by auto.
  destruct (hashes n l) as [k2|]; [|discriminate]. rewrite (IHl k2); auto.
Qed.

(** Equal items: the same value, or equal keys. *)
Definition heq (a b : val) : Prop := a = b \/ exists n k, hash H n a = Some k /\ hash H n b = Some k.
Lemma heq_refl a : heq a a.
Proof. left. auto. Qed.
Lemma heq_sym a b : heq a b -> heq b a.
Proof. intros [->|(n & k & A & B)]; [left; auto|right; eauto]. Qed.
Lemma heq_trans a b c : heq a b -> heq b c -> heq a c.
Proof.
  intros [->|(n & k & A & B)]; auto. intros [<-|(m & k' & C & D)]; [right; eauto|]. right. exists (n + m)%nat.
  assert (k' = k). { apply (hash_mono _ (n + m)) in B; [|lia]. apply (hash_mono _ (n + m)) in C; [|lia]. congruence. }
  subst. exists k. split; [apply (hash_mono n)|apply (hash_mono m)]; auto; lia.
Qed.
Lemma heq_ref a o : heq a (VRef o) -> exists o', a = VRef o'.
Proof.
  intros [->|(n & k & A & B)]; eauto. apply hash_ref_kind in B. destruct a; eauto.
  all: apply hash_prim_kind in A; [congruence|discriminate].
Qed.
Lemma hashes_items n l : forall l', hashes n l <> None -> hashes n l = hashes n l' ->
  Forall2 (fun a b => exists k, hash H n a = Some k /\ hash H n b = Some k) l l'.
Proof.
  induction l as [|a l IH]; intros [|b l'] N E; [constructor|exfalso|exfalso|].
  - rewrite hashes_cons in E. cbn in E. destruct (hash H n b); [destruct (hashes n l')|]; discriminate.
  - rewrite hashes_cons in E, N. change (hashes n []) with (Some HNil) in E. destruct (hash H n a); [destruct (hashes n l)|]; discriminate || congruence.
  - rewrite !hashes_cons in E. rewrite hashes_cons in N. destruct (hash H n a) as [k|] eqn:Ea; [|congruence].
    destruct (hashes n l) as [k2|] eqn:El; [|congruence]. destruct (hash H n b) as [k'|] eqn:Eb; [|congruence].
    destruct (hashes n l') as [k3|] eqn:El'; [|congruence]. injection E as <- <-. constructor; eauto. apply IH; congruence.
Qed.
(** Objects with equal keys. *)
Definition obj_heq (o o' : nat) (x x' : obj) : Prop :=
  match x with
  | OSeq t l => t = true /\ exists l', x' = OSeq true l' /\ Forall2 heq l l'
  | OPrim t v => exists v', x' = OPrim t v' /\ heq v v'
  | OBuffer b => exists b', x' = OBuffer b' /\ jb_data b' = jb_data b /\ jb_max b' = jb_max b /\ jb_resizable b' = jb_resizable b
                   /\ jb_readonly b' = true /\ jb_readonly b = true
  | OView b w => exists b' w', x' = OView b' w' /\
       let d := snd (view_memory (backing_of H b) w) in
       snd (view_memory (backing_of H b') w') = d /\
       item_keys (vw_tag w') (length d) d = item_keys (vw_tag w) (length d) d
  | ORegExp _ _ | ODate _ | OShared _ | OTransfer _ | OSharedRef _ | OBytes _ => x' = x
  | OOpaque => o' = o /\ x' = OOpaque
  | _ => False
  end.
Lemma heq_obj o o' : heq (VRef o) (VRef o') -> o = o' \/ exists x x', nth_error H o = Some x /\ nth_error H o' = Some x' /\ obj_heq o o' x x'.
Proof.
  intros [E|(n & k & A & B)]; [left; congruence|]. destruct n; [discriminate|]. right.
  destruct (hash_ref_inv _ _ _ A) as (x & Hx & S1). destruct (hash_ref_inv _ _ _ B) as (x' & Hx' & S2). exists x, x'. split; auto. split; auto.
  destruct k; cbn [key_shape] in S1, S2; try contradiction; subst; try reflexivity.
  - cbn. split; auto. exists []. split; auto.
  - destruct S1 as (a & l & -> & Ha & Hl). destruct S2 as (a' & l' & -> & Ha' & Hl'). cbn. split; auto. exists (a' :: l'). split; auto.
    constructor; [right; eauto|]. assert (F : Forall2 (fun a b => exists k, hash H n a = Some k /\ hash H n b = Some k) l l') by (apply hashes_items; congruence).
    clear -F. induction F as [|? ? ? ? (k & E1 & E2) ? IH]; constructor; auto. right. eauto.
  - destruct S1 as (v & -> & Hv). destruct S2 as (v' & -> & Hv'). cbn. exists v'. split; auto. right. eauto.
  - destruct S1 as (b & -> & ? & ? & ? & ?). destruct S2 as (b' & -> & ? & ? & ? & ?). cbn. exists b'. subst. repeat split; auto.
  - destruct S1 as (b & w & -> & E1 & I1). destruct S2 as (b' & w' & -> & E2 & I2). cbn. exists b', w'. rewrite E1. repeat split; auto. congruence.
  - destruct S1 as [-> ->]. destruct S2 as [-> ->]. cbn. auto.
Qed.
Lemma heq_kind a b : heq a b -> (forall o, a <> VRef o) -> forall o, b <> VRef o.
Proof. intros E N o ->. apply heq_ref in E as [o' ->]. elim (N o'). auto. Qed.
End Hash.
