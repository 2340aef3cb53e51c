(** C86: the data formats of views on every platform. *)
From Coq Require Import List NArith ZArith Bool Lia.
From Verif Require Import Base ModelTags ModelBuffer ModelFormat.
Import ListNotations.
Open Scope Z_scope.

(** * Specification *)
(** What C and the struct module guarantee of the sizes, with the widths that JavaScript needs available among the C types. *)
Record platform (calcsize : fchar -> Z) : Prop := mkPlatform {
  p_char : calcsize Fc = 1 /\ calcsize Fb = 1 /\ calcsize FB = 1;
  p_signs : calcsize Fh = calcsize FH /\ calcsize Fi = calcsize FI /\ calcsize Fl = calcsize FL /\ calcsize Fq = calcsize FQ;
  p_short : calcsize Fh = 2; p_int : calcsize Fi = 4; p_long : calcsize Fl = 4 \/ calcsize Fl = 8; p_longlong : calcsize Fq = 8;
  p_float : calcsize Fe = 2 /\ calcsize Ff = 4 /\ calcsize Fd = 8 }.
(** The data type and size of the elements of JavaScript's typed arrays *)
Definition js_elements (t : vtag) : dtype * Z :=
  match t with
  | vInt8 => (SignedInt, 1) | vInt16 => (SignedInt, 2) | vInt32 => (SignedInt, 4) | vBigInt64 => (SignedInt, 8)
  | vUint8 => (UnsignedInt, 1) | vUint8Clamped => (UnsignedInt, 1) | vUint16 => (UnsignedInt, 2) | vUint32 => (UnsignedInt, 4) | vBigUint64 => (UnsignedInt, 8)
  | vFloat16 => (FloatType, 2) | vFloat32 => (FloatType, 4) | vFloat64 => (FloatType, 8)
  | vDataView => (BytesType, 1)
  end.

(** resolve gives a format of the data type with the size asked for, or raises ValueError if there is none. On every platform. *)
Theorem C86_resolve : forall calcsize t n,
  match resolve calcsize t n with
  | Ok f => df_type f = t /\ df_length f = n /\ In (df_char f) (struct_formats t) /\ calcsize (df_char f) = n
  | Err e => e = EValue /\ forall c, In c (struct_formats t) -> calcsize c <> n
  end.
Proof.
  intros calcsize t n. unfold resolve. destruct (find _ _) as [c|] eqn:E.
  - apply find_some in E as (I & E). apply Z.eqb_eq in E. cbn [df_type df_length df_char]. auto.
  - split; [reflexivity|]. intros c I X. pose proof (find_none _ _ E c I) as F. cbn beta in F. apply Z.eqb_neq in F. contradiction.
Qed.
Print Assumptions C86_resolve.
Lemma find_ok calcsize t n : (exists c, In c (struct_formats t) /\ calcsize c = n) -> exists f, resolve calcsize t n = Ok f /\ df_type f = t /\ df_length f = n /\ calcsize (df_char f) = n.
Proof.
  intros (c & I & E). pose proof (C86_resolve calcsize t n) as R. destruct (resolve calcsize t n) as [f|e]; [exists f; tauto|]. elim (proj2 R c I E).
Qed.
(** Every view class has a data format, with JavaScript's element type and size. *)
Theorem C86_classes : forall calcsize t, platform calcsize -> exists f, data_format calcsize t = Ok f /\
  df_type f = fst (js_elements t) /\ df_length f = snd (js_elements t) /\ calcsize (df_char f) = isize t /\ isize t = snd (js_elements t).
Proof.
  intros calcsize t [(P1 & P2 & P3) (S1 & S2 & S3 & S4) H2 H4 _ H8 (F1 & F2 & F3)]. unfold data_format.
  assert (X : exists c, In c (struct_formats (fst (class_format t))) /\ calcsize c = snd (class_format t)).
  { destruct t; cbn [class_format fst snd struct_formats];
      [exists Fb|exists FB|exists FB|exists Fh|exists FH|exists Fi|exists FI|exists Fe|exists Ff|exists Fd|exists Fq|exists FQ|exists Fc]; (split; [cbn; tauto|congruence]). }
  destruct (find_ok calcsize _ _ X) as (f & E & A & B & C). exists f. split; [exact E|]. rewrite A, B, C. destruct t; repeat split.
Qed.
Print Assumptions C86_classes.
(** create_view with a tag or a member makes a view of its class, with any platform; with a format, a view of the class that has it. It is
    Uint8Array for the format that two classes share. *)
Theorem C86_create_by_tag : forall calcsize k t off len ro,
  create_view calcsize k (ByTag t) off len ro = view_from_bytes t k off len ro /\ create_view calcsize k (ByMember t) off len ro = view_from_bytes t k off len ro.
Proof. intros. split; [|reflexivity]. destruct t; reflexivity. Qed.
Print Assumptions C86_create_by_tag.
Lemma dformat_eqb_eq a b : dformat_eqb a b = true <-> a = b.
Proof.
  unfold dformat_eqb. rewrite !andb_true_iff, Z.eqb_eq. destruct a as [n t c], b as [n' t' c']. cbn [df_length df_type df_char].
  destruct (dtype_eq_dec t t') as [->|NT], (fchar_eq_dec c c') as [->|NC]; split.
  1: intros ((-> & _) & _); reflexivity.
  all: try (intros ((_ & X) & Y); discriminate).
  all: intros X; injection X; intros; subst; try contradiction. auto.
Qed.
Theorem C86_create_by_format : forall calcsize k f off len ro, platform calcsize ->
  (forall t, data_format calcsize t = Ok f ->
     create_view calcsize k (ByFormat f) off len ro = view_from_bytes (match t with vUint8Clamped => vUint8 | t => t end) k off len ro) /\
  ((forall t, data_format calcsize t <> Ok f) -> create_view calcsize k (ByFormat f) off len ro = Err EValue).
Proof.
  intros calcsize k f off len ro P. unfold create_view, lookup. split.
  - intros t E. destruct (find _ members) as [m|] eqn:EF.
    + pose proof (find_some _ _ EF) as (_ & T). destruct (data_format calcsize m) as [g|] eqn:EM; [|discriminate]. apply dformat_eqb_eq in T. subst g. cbn [bind].
      destruct (C86_classes calcsize t P) as (f1 & E1 & A1 & B1 & _). destruct (C86_classes calcsize m P) as (f2 & E2 & A2 & B2 & _).
      rewrite E1 in E. injection E as <-. rewrite E2 in EM. injection EM as ->.
      assert (M : m <> vUint8Clamped).
      { intros ->. unfold members in EF. cbn [find] in EF. destruct (C86_classes calcsize vInt8 P) as (g & G & GA & _). rewrite G in EF.
        assert (X : dformat_eqb g f1 = false) by (apply not_true_is_false; intros X; apply dformat_eqb_eq in X; subst; rewrite A2 in GA; discriminate GA). rewrite X in EF.
        change (data_format calcsize vUint8) with (data_format calcsize vUint8Clamped) in EF. rewrite E2 in EF.
        rewrite (proj2 (dformat_eqb_eq f1 f1) eq_refl) in EF. discriminate. }
      assert (TM : fst (js_elements t) = fst (js_elements m) /\ snd (js_elements t) = snd (js_elements m)) by (split; congruence).
      destruct TM as (TM1 & TM2). clear -M TM1 TM2. destruct t, m; cbn [js_elements fst snd] in TM1, TM2; try discriminate; try reflexivity; contradiction M; reflexivity.
    + pose proof (find_none _ _ EF t) as X. cbn beta in X. rewrite E, (proj2 (dformat_eqb_eq f f) eq_refl) in X. discriminate X. destruct t; cbn; tauto.
  - intros N. destruct (find _ members) as [m|] eqn:EF; [|reflexivity]. exfalso. apply find_some in EF as (_ & T).
    destruct (data_format calcsize m) as [g|] eqn:EM; [|discriminate]. apply dformat_eqb_eq in T. subst g. exact (N m EM).
Qed.
Print Assumptions C86_create_by_format.

(** Linux and Windows: long has 8 and 4 bytes *)
Definition sizes (long : Z) (c : fchar) : Z :=
  match c with Fc | Fb | FB => 1 | Fh | FH | Fe => 2 | Fi | FI | Ff => 4 | Fl | FL => long | Fq | FQ | Fd => 8 end.
Example C86_case : platform (sizes 8) /\ platform (sizes 4) /\ data_format (sizes 8) vBigUint64 = Ok (mkFormat 8 UnsignedInt FL) /\
  data_format (sizes 4) vBigUint64 = Ok (mkFormat 8 UnsignedInt FQ) /\ (forall t, data_format (sizes 8) t <> Ok (mkFormat 8 UnsignedInt FQ)).
Proof.
  split; [constructor; cbn; auto|]. split; [constructor; cbn; auto|]. split; [reflexivity|]. split; [reflexivity|]. intros t. destruct t; vm_compute; discriminate.
Qed.
