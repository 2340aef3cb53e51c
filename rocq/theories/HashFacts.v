(** The keys deduplicate compares. *)
From Coq Require Import List NArith ZArith Bool Lia.
From Verif Require Import Base Dict ModelTags PrimFacts SpecNumber ModelLog ModelValue ValueFacts ModelBuffer ModelHeap ModelDecode ModelEncode.
Import ListNotations.
Open Scope N_scope.

Lemma vtag_beq_spec a b : vtag_beq a b = true <-> a = b.
Proof. split; [apply internal_vtag_dec_bl|apply internal_vtag_dec_lb]. Qed.
Lemma hkey_eqb_spec : forall a b, hkey_eqb a b = true <-> a = b.
Proof.
  induction a; destruct b; cbn [hkey_eqb]; try (split; [discriminate|intros E; discriminate E]); try tauto;
    rewrite ?andb_true_iff, ?Z.eqb_eq, ?N.eqb_eq, ?listN_eqb_spec, ?Bool.eqb_true_iff, ?Nat.eqb_eq, ?IHa, ?IHa1, ?IHa2,
      ?vtag_beq_spec, ?stag_eqb_eq;
    (split; [intuition congruence|intros E; injection E; intuition congruence]).
Qed.
Lemma hash_key_eqb_spec a b : hash_key_eqb a b = true <-> a = b.
Proof.
  destruct a as [t k], b as [t' k']. unfold hash_key_eqb. cbn [fst snd]. rewrite andb_true_iff, hkey_eqb_spec.
  destruct t, t'; cbn [htype_eqb]; rewrite ?vtag_beq_spec; split; intuition (try discriminate; try congruence).
Qed.

Section Hash.
Variable H : heap.

Lemma hash_S n v : hash H (S n) v =
      match v with
      | VNone => Some HNone
      | VUndef => Some HUndef
      | VHole => Some HHole
      | VBool b => Some (HNum (if b then 1 else 0) 0)
      | VInt z => hnumber (Finite z 0)
      | VFloat b => hnumber (ieee b)
      | VStr s => Some (HStr s)
      | VRef o =>
          match nth_error H o with
          | Some (OSeq true l) =>
              fold_right (fun v r => match hash H n v, r with
                                     | Some k, Some r => Some (HCons k r)
                                     | _, _ => None
                                     end) (Some HNil) l
          | Some (ORegExp s f) => Some (HRegExp s f)
          | Some (OPrim t v) => match hash H n v with Some k => Some (HPrim t k) | None => None end
          | Some (ODate d) => Some (HDate d)
          | Some (OBuffer b) =>
              if jb_readonly b then Some (HBuffer (jb_data b) (jb_max b) (jb_resizable b)) else None
          | Some (OShared i) => Some (HShared i)
          | Some (OTransfer i) => Some (HTransfer i)
          | Some (OSharedRef i) => Some (HSharedRef i)
          | Some (OBytes d) => Some (HBytes d)
          | Some (OView b w) =>
              let k := backing_of H b in
              if bk_hashable k then
                let d := snd (view_memory k w) in
                match item_keys (vw_tag w) (length d) d with Some items => Some (HView d items) | None => None end
              else None
          | Some OOpaque => Some (HId o)
          | _ => None
          end
      end.
Proof. destruct v; reflexivity. Qed.

(** Keys of primitives and of objects. *)
Definition prim_hkey (k : hkey) : bool :=
  match k with HNone | HUndef | HHole | HNum _ _ | HInf _ | HStr _ => true | _ => false end.
Lemma hnumber_num n k : hnumber n = Some k -> match k with HNum _ _ | HInf _ => True | _ => False end.
Proof. destruct n; cbn [hnumber]; [discriminate|intros [= <-]; exact I|]. destruct (canon m e). intros [= <-]. exact I. Qed.
Lemma hash_ref_kind n o k : hash H n (VRef o) = Some k -> prim_hkey k = false.
Proof.
  destruct n; [discriminate|]. rewrite hash_S. destruct (nth_error H o) as [[]|]; try discriminate; try (intros [= <-]; reflexivity).
  - destruct (hash H n v); intros [= <-]; reflexivity.
  - destruct (jb_readonly b); intros [= <-]; reflexivity.
  - cbv zeta. destruct (bk_hashable _); [destruct (item_keys _ _ _)|]; try discriminate; intros [= <-]; reflexivity.
  - destruct tuple; [|discriminate]. destruct l; cbn [fold_right]; [intros [= <-]; reflexivity|].
    destruct (hash H n v); [destruct (fold_right _ _ _)|]; intros [= <-]; reflexivity.
Qed.
Lemma hnumber_eq a b : hnumber a <> None -> hnumber a = hnumber b -> same_number a b.
Proof.
  intros Na E. apply num_key_eq. destruct a, b; cbn [hnumber num_key] in *; try congruence;
    repeat match goal with |- context [canon ?m ?e] => destruct (canon m e) end;
    repeat match goal with H : context [canon ?m ?e] |- _ => destruct (canon m e) end; congruence.
Qed.

(** Equal keys: only floats and objects can be confused. *)
Lemma hash_key_eq v v0 : hash_key H v <> None -> hash_key H v = hash_key H v0 ->
  match v with
  | VFloat b => exists b0, v0 = VFloat b0 /\ same_number (ieee b) (ieee b0)
  | VRef _ => exists o0, v0 = VRef o0
  | _ => v0 = v
  end.
Proof.
  intros Nn E. unfold hash_key in *.
  destruct (hash H (S (length H)) v) as [k|] eqn:Ev; [|congruence].
  destruct (hash H (S (length H)) v0) as [k0|] eqn:E0; [|congruence].
  injection E as Et Ek. subst k0. clear Nn.
  assert (R : match v0 with VRef _ => prim_hkey k = false | _ => True end) by (destruct v0; auto; eapply hash_ref_kind; eauto).
  assert (R' : match v with VRef _ => prim_hkey k = false | _ => True end) by (destruct v; auto; eapply hash_ref_kind; eauto).
  rewrite hash_S in Ev, E0.
  destruct v; try (injection Ev as <-); destruct v0; cbn [type_of prim_hkey] in *; try discriminate; auto;
    try (injection E0 as E0; congruence);
    try (pose proof (hnumber_num _ _ Ev)); try (pose proof (hnumber_num _ _ E0)); try (destruct k; try contradiction; discriminate).
  - injection E0 as E0. destruct b, b0; congruence.
  - rewrite <- E0 in Ev. f_equal. cbn [hnumber] in Ev. destruct (canon z 0) eqn:C1, (canon z0 0) eqn:C2.
    injection Ev as -> ->. rewrite <- C2 in C1. apply canon_eq in C1. unfold same_value in C1. rewrite !Z.pow_0_r in C1. lia.
  - exists bits0. split; auto. apply hnumber_eq; [congruence|]. rewrite <- E0 in Ev. exact Ev.
  - eauto.
Qed.

(** Equal keys of buffers: the objects are buffers of the same kind. *)
Lemma hash_key_buffer o o0 x : hash_key H (VRef o) <> None -> hash_key H (VRef o) = hash_key H (VRef o0) ->
  nth_error H o = Some x -> 
  match x with
  | OBuffer b => exists b0, nth_error H o0 = Some (OBuffer b0) /\ jb_data b0 = jb_data b /\ jb_max b0 = jb_max b /\
        jb_resizable b0 = jb_resizable b /\ jb_readonly b0 = true /\ jb_readonly b = true
  | OBytes _ | OShared _ | OTransfer _ | ODate _ | OSharedRef _ | ORegExp _ _ => nth_error H o0 = Some x
  | OByteArray _ => False
  | OOpaque => o0 = o
  | _ => True
  end.
Proof.
  intros Nn E Hx. unfold hash_key in *.
  destruct (hash H (S (length H)) (VRef o)) as [k|] eqn:Ev; [|congruence].
  destruct (hash H (S (length H)) (VRef o0)) as [k0|] eqn:E0; [|congruence].
  injection E as Ek. subst k0. clear Nn. rewrite hash_S, Hx in Ev. rewrite hash_S in E0.
  assert (T : forall l, fold_right (fun v r => match hash H (length H) v, r with Some k, Some r => Some (HCons k r) | _, _ => None end) (Some HNil) l = Some k ->
     match k with HNil | HCons _ _ => True | _ => False end).
  { intros [|a l]; cbn [fold_right]; [intros [= <-]; exact I|].
    destruct (hash H (length H) a); [destruct (fold_right _ _ _)|]; intros [= <-]; exact I. }
  destruct x; auto; try discriminate; try (injection Ev as <-);
    try (destruct (jb_readonly b) eqn:Rb; [injection Ev as <-|discriminate]);
    (destruct (nth_error H o0) as [[]|] eqn:Hx0; try discriminate; try (injection E0 as E0; congruence);
     try (destruct (hash H (length H) v); discriminate);
     try (match type of E0 with context [jb_readonly ?b1] => destruct (jb_readonly b1) eqn:Rb0 end; try discriminate; injection E0 as E01 E02 E03; eauto 10; fail);
     try (cbv zeta in E0; match type of E0 with context [bk_hashable ?b1] => destruct (bk_hashable b1); [destruct (item_keys _ _ _)|]; discriminate end);
     try (destruct tuple; [specialize (T _ E0); contradiction|discriminate])).
Qed.
End Hash.
