(** More recursion depth never changes an answer. *)
From Coq Require Import List NArith ZArith Bool Lia.
From Verif Require Import Base ModelTags ModelPrim ModelValue ModelObject ModelMap ModelBuffer ModelHeap ModelDecode DecodeFacts.
Import ListNotations.

Definition ext {A} (r1 r2 : result A) : Prop := r1 = Err EOutOfFuel \/ r1 = r2.
Lemma ext_refl {A} (r : result A) : ext r r.
Proof. right. reflexivity. Qed.
Lemma ext_bind {A B} (m1 m2 : result A) (k1 k2 : A -> result B) :
  ext m1 m2 -> (forall a, ext (k1 a) (k2 a)) -> ext (bind m1 k1) (bind m2 k2).
Proof. intros [-> | ->] H; [left; reflexivity|]. destruct m2; cbn; auto. right. reflexivity. Qed.
Definition rext (r1 r2 : reader) : Prop := forall t pos st, ext (r1 t pos st) (r2 t pos st).

Section Mono.
Variable cfg : dcfg.
Variable data : bytes.
Variable version : N.
Variables r1 r2 : reader.
Hypothesis R : rext r1 r2.
Ltac eb := apply ext_bind; [apply ext_refl|].
Lemma value_ext pos st : ext (dec_value data r1 pos st) (dec_value data r2 pos st).
Proof. unfold dec_value. eb. intros [t p]. apply R. Qed.
Lemma string_ext pos st : ext (dec_string data r1 pos st) (dec_string data r2 pos st).
Proof.
  unfold dec_string. eb. intros [t p]. destruct (negb _); [apply ext_refl|].
  apply ext_bind; [apply R|]. intros a. apply ext_refl.
Qed.
Lemma pairs_ext isk endt : forall f1 f2 pos acc n st, (f1 <= f2)%nat ->
  ext (dec_pairs cfg data r1 isk endt f1 pos acc n st) (dec_pairs cfg data r2 isk endt f2 pos acc n st).
Proof.
  induction f1 as [|f1 IH]; intros f2 pos acc n st L; [left; reflexivity|]. destruct f2 as [|f2]; [lia|].
  cbn [dec_pairs]. eb. intros [t p]. destruct (stag_eqb t endt); [apply ext_refl|].
  destruct (isk t); [|apply ext_refl]. apply ext_bind; [apply R|]. intros [[k p2] st2].
  destruct (negb _); [apply ext_refl|]. apply ext_bind; [apply value_ext|]. intros [[v p3] st3].
  eb. intros acc'. apply IH. lia.
Qed.
Lemma members_ext : forall f1 f2 pos acc n st, (f1 <= f2)%nat ->
  ext (dec_members data r1 f1 pos acc n st) (dec_members data r2 f2 pos acc n st).
Proof.
  induction f1 as [|f1 IH]; intros f2 pos acc n st L; [left; reflexivity|]. destruct f2 as [|f2]; [lia|].
  cbn [dec_members]. eb. intros [t p]. destruct (stag_eqb t kEndJSSet); [apply ext_refl|].
  apply ext_bind; [apply R|]. intros [[k p2] st2]. eb. intros acc'. apply IH. lia.
Qed.
Lemma elems_ext count : forall f1 f2 i pos acc st, (f1 <= f2)%nat ->
  ext (dec_elems cfg data r1 f1 count i pos acc st) (dec_elems cfg data r2 f2 count i pos acc st).
Proof.
  induction f1 as [|f1 IH]; intros f2 i pos acc st L; destruct f2 as [|f2]; try lia; cbn [dec_elems];
    destruct (i =? count)%N; try apply ext_refl; try (left; reflexivity).
  apply ext_bind; [apply value_ext|]. intros [[v p] st1]. eb. intros acc'. apply IH. lia.
Qed.
Lemma regexp_ext pos st : ext (dec_regexp data r1 pos st) (dec_regexp data r2 pos st).
Proof. unfold dec_regexp. apply ext_bind; [apply string_ext|]. intros a. apply ext_refl. Qed.
Lemma field_ext f e pos st : ext (dec_field data r1 f e pos st) (dec_field data r2 f e pos st).
Proof.
  unfold dec_field. destruct (etag_beq e f); [|apply ext_refl]. apply ext_bind; [apply string_ext|]. intros a. apply ext_refl.
Qed.
Lemma error_ext pos st : ext (dec_error data r1 pos st) (dec_error data r2 pos st).
Proof.
  unfold dec_error. eb. intros [e p]. eb. intros [e2 p2]. apply ext_bind; [apply field_ext|]. intros [[[m e3] p3] st3].
  apply ext_bind; [apply field_ext|]. intros [[[s e4] p4] st4]. cbn [alloc_rec alloc].
  apply ext_bind.
  { destruct (etag_beq e4 eCause); [|apply ext_refl]. apply ext_bind; [apply value_ext|]. intros a. apply ext_refl. }
  intros [[[c e5] p5] st5]. apply ext_bind; [|intros a; apply ext_refl].
  destruct s; [apply ext_refl|apply field_ext].
Qed.
Variables f1 f2 : nat.
Hypothesis L : (f1 <= f2)%nat.
Lemma map_ext' pos st : ext (dec_map cfg data r1 f1 pos st) (dec_map cfg data r2 f2 pos st).
Proof. unfold dec_map. cbn [alloc_rec alloc]. apply ext_bind; [apply pairs_ext; auto|]. intros a. apply ext_refl. Qed.
Lemma set_ext pos st : ext (dec_set data r1 f1 pos st) (dec_set data r2 f2 pos st).
Proof. unfold dec_set. cbn [alloc_rec alloc]. apply ext_bind; [apply members_ext; auto|]. intros a. apply ext_refl. Qed.
Lemma object_ext pos st : ext (dec_object cfg data r1 f1 pos st) (dec_object cfg data r2 f2 pos st).
Proof. unfold dec_object. cbn [alloc_rec alloc]. apply ext_bind; [apply pairs_ext; auto|]. intros a. apply ext_refl. Qed.
Lemma dense_ext pos st : ext (dec_dense cfg data r1 f1 pos st) (dec_dense cfg data r2 f2 pos st).
Proof.
  unfold dec_dense. cbn [alloc_rec alloc]. eb. intros [n p]. apply ext_bind; [apply elems_ext; auto|]. intros [[a p2] st2].
  apply ext_bind; [apply pairs_ext; auto|]. intros x. apply ext_refl.
Qed.
Lemma sparse_ext pos st : ext (dec_sparse cfg data r1 f1 pos st) (dec_sparse cfg data r2 f2 pos st).
Proof.
  unfold dec_sparse. cbn [alloc_rec alloc]. eb. intros [n p]. eb. intros a.
  apply ext_bind; [apply pairs_ext; auto|]. intros x. apply ext_refl.
Qed.
End Mono.

Lemma dec_ext cfg data version : forall f1 f2, (f1 <= f2)%nat -> rext (dec cfg data version f1) (dec cfg data version f2).
Proof.
  induction f1 as [|f1 IH]; intros f2 L t pos st; [left; reflexivity|]. destruct f2 as [|f2]; [lia|].
  assert (rext (dec cfg data version f1) (dec cfg data version f2)) as R by (apply IH; lia).
  destruct t; cbn [dec]; try apply ext_refl.
  - apply object_ext; auto; lia.
  - apply sparse_ext; auto; lia.
  - apply dense_ext; auto; lia.
  - apply regexp_ext; auto.
  - apply map_ext'; auto; lia.
  - apply set_ext; auto; lia.
  - apply error_ext; auto.
Qed.
Theorem loads_depth_irrelevant cfg data d1 d2 : (length data < d1)%nat -> (length data < d2)%nat ->
  loads_depth d1 cfg data = loads_depth d2 cfg data.
Proof.
  assert (forall d1 d2, (d1 <= d2)%nat -> (length data < d1)%nat -> loads_depth d1 cfg data = loads_depth d2 cfg data) as H.
  { clear d1 d2. intros d1 d2 L D. assert (ext (loads_depth d1 cfg data) (loads_depth d2 cfg data)) as [E|E].
    - unfold loads_depth. apply ext_bind; [apply ext_refl|]. intros [v p].
      apply ext_bind; [apply value_ext; apply dec_ext; exact L|]. intros a. apply ext_refl.
    - pose proof (loads_safe d1 cfg data D) as S1. rewrite E in S1. discriminate S1.
    - exact E. }
  intros A B. destruct (Nat.le_ge_cases d1 d2); [apply H|symmetry; apply H]; auto.
Qed.
