(** C83: the repr of buffers and views. *)
From Coq Require Import List NArith ZArith Bool Lia.
From Coq Require Import ZifyBool ZifyN ZifyNat.
From Verif Require Import Base ModelTags ModelBuffer ModelBufRepr SpecBufRepr.
Import ListNotations.
Open Scope Z_scope.

Lemma new_shape d mx rs ro b : jsbuf_new d mx rs ro = Ok b ->
  zlen (jb_data b) <= jb_max b /\ (jb_resizable b = false -> jb_max b = zlen (jb_data b)) /\ (jb_resizable b = true -> jb_readonly b = false).
Proof.
  unfold jsbuf_new. destruct ((rs || _) && ro) eqn:E; [discriminate|]. destruct (Z.ltb_spec (match mx with Some m => m | None => zlen d end) (zlen d)) as [L|L]; [discriminate|].
  intros [= <-]. cbn [jb_data jb_max jb_resizable jb_readonly]. split; [lia|]. split.
  - intros F. destruct mx; [|reflexivity]. rewrite orb_true_r in F. discriminate.
  - intros T. rewrite T in E. cbn [andb] in E. exact E.
Qed.
Lemma made_shape b : made b ->
  zlen (jb_data b) <= jb_max b /\ (jb_resizable b = false -> jb_max b = zlen (jb_data b)) /\ (jb_resizable b = true -> jb_readonly b = false).
Proof.
  induction 1 as [d mx rs ro b E|n mx rs ro b E|b n b' _ (L & F & R) E].
  - exact (new_shape _ _ _ _ _ E).
  - unfold jsbuf_alloc in E. destruct ((rs || _) && ro); [discriminate|]. destruct ((n <? 0) && negb ro); [discriminate|]. exact (new_shape _ _ _ _ _ E).
  - unfold jsbuf_resize in E. destruct (jb_resizable b) eqn:Rb; cbn [negb] in E; [|discriminate].
    destruct (Z.leb_spec 0 n) as [N0|N0]; cbn [andb negb] in E; [|discriminate]. destruct (Z.leb_spec n (jb_max b)) as [N1|N1]; cbn [negb] in E; [|discriminate].
    injection E as <-. cbn [jb_data jb_max jb_resizable jb_readonly]. split; [|split; [discriminate|auto]].
    unfold zlen in *. destruct (Z.ltb_spec (Z.of_nat (length (jb_data b))) n) as [X|X].
    + rewrite app_length. unfold zeros. rewrite repeat_length. lia.
    + rewrite firstn_length. lia.
Qed.
Lemma short_data maxstring (held ro : bool) d : (length d <= maxstring)%nat ->
  eval_data (if held then repr_memoryview maxstring ro d else if ro then repr_bytes maxstring d None
             else repr_bytes maxstring (firstn maxstring d) (Some (maxstring <? length d)%nat)) = Some d.
Proof.
  intros L. assert (F : (maxstring <? length d)%nat = false) by (apply Nat.ltb_ge; exact L).
  unfold repr_memoryview, repr_bytearray, repr_bytes. rewrite !(firstn_all2 d L), F, Nat.ltb_irrefl.
  destruct held, ro; cbn [eval_data orb]; rewrite ?F; reflexivity.
Qed.
Lemma long_data maxstring (held ro : bool) d : (maxstring < length d)%nat ->
  eval_data (if held then repr_memoryview maxstring ro d else if ro then repr_bytes maxstring d None
             else repr_bytes maxstring (firstn maxstring d) (Some (maxstring <? length d)%nat)) = None.
Proof.
  intros L. assert (F : (maxstring <? length d)%nat = true) by (apply Nat.ltb_lt; exact L).
  assert (G : (length (firstn maxstring d) <? length d)%nat = true) by (apply Nat.ltb_lt; rewrite firstn_length; lia).
  unfold repr_memoryview, repr_bytearray, repr_bytes. rewrite F, G. destruct held, ro; reflexivity.
Qed.

(** The repr of a buffer that is shown in full evaluates to the same buffer: the same bytes, maximum, and whether it is resizable and read-only.
    Missing: resizable buffers that are at their maximum (C83_full_resizable_refuted). *)
Theorem C83_buffer_partial : forall maxstring held b, made b -> (length (jb_data b) <= maxstring)%nat ->
  (jb_resizable b = true -> zlen (jb_data b) <> jb_max b) ->
  eval_buffer (repr_buffer maxstring held b) = Some (Ok b).
Proof.
  intros maxstring held b M L R. destruct (made_shape b M) as (S1 & S2 & S3). unfold eval_buffer, repr_buffer. cbn [bc_data bc_max bc_readonly].
  rewrite (short_data maxstring held (jb_readonly b) (jb_data b) L). f_equal. destruct b as [d mx rs ro]. cbn [jb_data jb_max jb_resizable jb_readonly] in *.
  unfold jsbuf_new. destruct rs.
  - rewrite (S3 eq_refl). replace (zlen d =? mx) with false by (specialize (R eq_refl); lia). cbn [negb orb andb].
    replace (mx <? zlen d) with false by lia. reflexivity.
  - rewrite (S2 eq_refl), Z.eqb_refl. cbn [negb orb andb]. rewrite Z.ltb_irrefl. reflexivity.
Qed.
Print Assumptions C83_buffer_partial.
(** At its maximum it evaluates to a buffer with the same bytes that cannot be resized. *)
Theorem C83_full_resizable_refuted : forall maxstring held b, made b -> (length (jb_data b) <= maxstring)%nat ->
  jb_resizable b = true -> zlen (jb_data b) = jb_max b ->
  eval_buffer (repr_buffer maxstring held b) = Some (Ok (mkBuf (jb_data b) (jb_max b) false (jb_readonly b))).
Proof.
  intros maxstring held b M L R E. destruct (made_shape b M) as (S1 & S2 & S3). unfold eval_buffer, repr_buffer. cbn [bc_data bc_max bc_readonly].
  rewrite (short_data maxstring held (jb_readonly b) (jb_data b) L). f_equal. rewrite <- E, Z.eqb_refl. unfold jsbuf_new. cbn [negb orb andb].
  rewrite Z.ltb_irrefl. reflexivity.
Qed.
Print Assumptions C83_full_resizable_refuted.
(** A repr that was cut is not an expression: it never evaluates to a buffer with fewer bytes. *)
Theorem C83_cut : forall maxstring held b, (maxstring < length (jb_data b))%nat -> eval_buffer (repr_buffer maxstring held b) = None.
Proof.
  intros maxstring held b L. unfold eval_buffer, repr_buffer. cbn [bc_data]. rewrite (long_data maxstring held (jb_readonly b) (jb_data b) L). reflexivity.
Qed.
Print Assumptions C83_cut.

(** The repr of a view evaluates to the same view over the same buffer. Missing: views made with readonly=True (C83_view_readonly_refuted) and
    what is missing for the buffer. *)
Theorem C83_view_partial : forall maxstring held k t off len v, view_new t off len false = Ok v ->
  match k with
  | BkBuffer b => made b /\ (length (jb_data b) <= maxstring)%nat /\ (jb_resizable b = true -> zlen (jb_data b) <> jb_max b)
  | BkInaccessible => False
  | _ => True
  end ->
  exists c, repr_view maxstring held k v = Some c /\ eval_view c = Some (Ok (k, v)).
Proof.
  intros maxstring held k t off len v V K. pose proof V as V0. unfold view_new in V. destruct (off <? 0) eqn:O0; [discriminate|].
  destruct (match len with Some l => l <? 0 | None => false end) eqn:L0; [discriminate|]. injection V as <-.
  assert (O : match (if off =? 0 then None else Some off) with Some z => z | None => 0 end = off) by (destruct (Z.eqb_spec off 0); auto).
  unfold repr_view. cbn [vw_tag vw_offset vw_length vw_readonly].
  destruct k as [d|d|b|]; [..|elim K]; (eexists; split; [reflexivity|]); unfold eval_view; cbn [vc_tag vc_backing vc_offset vc_length vc_readonly eval_backing]; cbv zeta;
    rewrite ?O; rewrite ?V0; auto.
  destruct K as (M & L & R). rewrite (C83_buffer_partial maxstring held b M L R). reflexivity.
Qed.
Print Assumptions C83_view_partial.
(** A read-only view shows its item_length for readonly: it evaluates to a writable view if it has no length, raises ValueError if it has
    one, and is right for a length of 1 only. *)
Theorem C83_view_readonly_refuted : forall maxstring held d t off len v, view_new t off len true = Ok v ->
  exists c, repr_view maxstring held (BkByteArray d) v = Some c /\
    eval_view c = Some (match len with
                        | None => Ok (BkByteArray d, mkView t off None false)
                        | Some l => if l =? 1 then Ok (BkByteArray d, v) else Err EValue
                        end).
Proof.
  intros maxstring held d t off len v V. pose proof V as V0. unfold view_new in V. destruct (off <? 0) eqn:O0; [discriminate|].
  destruct (match len with Some l => l <? 0 | None => false end) eqn:L0; [discriminate|]. injection V as <-.
  assert (O : match (if off =? 0 then None else Some off) with Some z => z | None => 0 end = off) by (destruct (Z.eqb_spec off 0); auto).
  unfold repr_view. cbn [vw_tag vw_offset vw_length vw_readonly]. eexists. split; [reflexivity|].
  unfold eval_view. cbn [vc_tag vc_backing vc_offset vc_length vc_readonly eval_backing]. cbv zeta. rewrite O. f_equal. destruct len as [l|].
  - rewrite V0. reflexivity.
  - unfold view_new. rewrite O0. reflexivity.
Qed.
Print Assumptions C83_view_readonly_refuted.

(** A resizable buffer below its maximum, a read-only one, and views of both; 30 characters. *)
Example C83_case : exists b c v, jsbuf_new [1; 2; 3]%N (Some 8) false false = Ok b /\ jsbuf_new [1; 2]%N None false true = Ok c /\
  view_new vUint16 1 None false = Ok v /\
  made b /\ made c /\ zlen (jb_data b) <> jb_max b /\ (length (jb_data b) <= 30)%nat /\ (length (jb_data c) <= 30)%nat /\
  repr_buffer 30 false b = mkBcall (EBytes [1; 2; 3]%N false) (Some 8) false /\
  repr_buffer 30 true c = mkBcall (EMemoryView (EBytes [1; 2]%N false)) None true.
Proof.
  do 3 eexists. split; [reflexivity|]. split; [reflexivity|]. split; [reflexivity|].
  split; [apply (made_new [1; 2; 3]%N (Some 8) false false); reflexivity|]. split; [apply (made_new [1; 2]%N None false true); reflexivity|]. vm_compute. repeat split; try lia; discriminate.
Qed.
