(** C80, continued: what is not so, and programs that meet the hypotheses of the theorems. *)
From Coq Require Import List NArith ZArith Bool Lia.
From Verif Require Import Base ModelOwner SpecOwner Prop_Owner Prop_Owner2 Prop_Owner3 Prop_Owner4 Prop_Owner5 Prop_Owner6.
Import ListNotations.
Open Scope Z_scope.

(** JSArrayBuffer(h, copy_data=copy, readonly=ro) *)
Definition of_data (h : nat) (copy ro : bool) : newbuf := mkNew (Some h) None None None (Some copy) (Some ro).

(** A buffer that is not resizable and wraps a bytearray changes its length with it:
    b = bytearray(b"\1\2\3\4"); j = JSArrayBuffer(b, copy_data=False); del b[1:] *)
Definition shrinks : list mop := [MByteArray [1;2;3;4]%N; MBuffer (of_data 0 false false)].
Theorem C80_fixed_refuted : exists p ops st tr v a ops2 st2 tr2 c c2, mrun p ms_start ops = (st, tr) /\ made tr v (MBuffer a) /\ ~ wants_resizable a /\
  mrun p st ops2 = (st2, tr2) /\ contents st v = Some c /\ contents st2 v = Some c2 /\ length c2 <> length c.
Proof.
  set (r := mrun true ms_start shrinks). set (r2 := mrun true (fst r) [MTruncate 0 1]).
  exists true, shrinks, (fst r), (snd r), 1%nat, (of_data 0 false false), [MTruncate 0 1], (fst r2), (snd r2), [1;2;3;4]%N, [1]%N.
  split; [reflexivity|]. split; [exists [(MByteArray [1;2;3;4]%N, MNew)], []; split; reflexivity|].
  split; [intros [H|H]; [discriminate|apply H; reflexivity]|]. repeat split; discriminate.
Qed.
Print Assumptions C80_fixed_refuted.

(** JSArrayBuffer(max_byte_length=4, resizable=False) is resizable. *)
Theorem C80_resizable_refuted : exists p ops st tr v a, mrun p ms_start ops = (st, tr) /\ made tr v (MBuffer a) /\ na_resizable a = Some false /\ is_resizable st v = true.
Proof.
  set (a := mkNew None None (Some 4) (Some false) None None). set (r := mrun true ms_start [MBuffer a]).
  exists true, [MBuffer a], (fst r), (snd r), 0%nat, a. split; [reflexivity|]. split; [exists [], []; split; reflexivity|]. split; reflexivity.
Qed.
Print Assumptions C80_resizable_refuted.


(** 0: bytearray, 1: buffer with a copy, 2: buffer that wraps 0, 3: readonly buffer that wraps 0, 4: data of 3, 5: a slice of 4,
    6: memoryview of 1's data, 7: buffer of 6 without copying, 8: resizable buffer with a copy *)
Definition family : list mop :=
  [MByteArray [1;2;3;4]%N; MBuffer (of_data 0 true false); MBuffer (of_data 0 false false); MBuffer (of_data 0 false true); MData 3; MSlice 4 1 3; MData 1;
   MBuffer (of_data 6 false false); MBuffer (mkNew (Some 0%nat) None (Some 6) None None None)].
(** C80_isolated and C80_own: the bytearray changes and the copies do not, and the other way round. *)
Example C80_isolated_case : forall p, let '(st, tr) := mrun p ms_start family in
  length tr = 9%nat /\ Forall (fun e => snd e = MNew) tr /\
  (let '(st2, tr2) := mrun p st [MSetByte 0 1 9; MSetByte 4 0 7] in
   map snd tr2 = [MDone; MErr EType] /\
   map (contents st2) [0; 1; 2; 3; 4; 5; 6; 7; 8]%nat =
     map Some [[1;9;3;4]; [1;2;3;4]; [1;9;3;4]; [1;9;3;4]; [1;9;3;4]; [9;3]; [1;2;3;4]; [1;2;3;4]; [1;2;3;4]]%N) /\
  (let '(st2, tr2) := mrun p st [MSetByte 6 1 9; MResize 8 6] in
   map snd tr2 = [MDone; MDone] /\
   map (contents st2) [0; 1; 2; 5; 6; 7; 8]%nat = map Some [[1;2;3;4]; [1;9;3;4]; [1;2;3;4]; [2;3]; [1;9;3;4]; [1;9;3;4]; [1;2;3;4;0;0]]%N) /\
  made_from (MBuffer (of_data 0 true false)) = None /\ roots tr = [0; 1; 0; 0; 0; 0; 1; 1; 8]%nat.
Proof. intros []; vm_compute; (split; [reflexivity|]); (split; [repeat constructor|]); repeat split; reflexivity. Qed.
Example C80_own_case : forall p, let tr := snd (mrun p ms_start family) in
  made tr 1 (MBuffer (of_data 0 true false)) /\ derived tr 1 7 /\ ~ same_memory tr 1 0 /\ frozen tr 5 /\ ~ frozen tr 6.
Proof.
  intros p tr. assert (M7 : made tr 7 (MBuffer (of_data 6 false false))) by (exists (firstn 7 tr), (skipn 8 tr); destruct p; split; reflexivity).
  assert (M6 : made tr 6 (MData 1)) by (exists (firstn 6 tr), (skipn 7 tr); destruct p; split; reflexivity).
  assert (M5 : made tr 5 (MSlice 4 1 3)) by (exists (firstn 5 tr), (skipn 6 tr); destruct p; split; reflexivity).
  assert (M4 : made tr 4 (MData 3)) by (exists (firstn 4 tr), (skipn 5 tr); destruct p; split; reflexivity).
  assert (M3 : made tr 3 (MBuffer (of_data 0 false true))) by (exists (firstn 3 tr), (skipn 4 tr); destruct p; split; reflexivity).
  assert (M1 : made tr 1 (MBuffer (of_data 0 true false))) by (exists (firstn 1 tr), (skipn 2 tr); destruct p; split; reflexivity).
  assert (M0 : made tr 0 (MByteArray [1;2;3;4]%N)) by (exists [], (skipn 1 tr); destruct p; split; reflexivity).
  split; [exact M1|]. split.
  { eapply dv_step; [eapply dv_step; [apply dv_self|exact M6|reflexivity]|exact M7|reflexivity]. }
  split; [unfold same_memory; destruct p; discriminate|]. split.
  { eapply fr_from; [exact M5|reflexivity|]. eapply fr_from; [exact M4|reflexivity|]. eapply fr_buffer; [exact M3|reflexivity]. }
  intros F. refine (C80_frozen p family (fst (mrun p ms_start family)) tr 6 (MSetByte 6 0 9) _ F eq_refl _); [unfold tr; destruct (mrun p ms_start family); reflexivity|].
  destruct p; vm_compute; reflexivity.
Qed.
(** C80_constant and C80_frozen: readonly buffers with memory of their own, one from data and one of zeros *)
Example C80_constant_case : forall p, let '(st, tr) := mrun p ms_start [MByteArray [1;2]%N; MBuffer (of_data 0 true true); MBuffer (mkNew None (Some 2) None None None (Some true)); MData 1; MView 3] in
  map snd tr = [MNew; MNew; MNew; MNew; MNew] /\ made_from (MBuffer (of_data 0 true true)) = None /\
  (let '(st2, tr2) := mrun p st [MSetByte 0 0 9; MTruncate 0 1; MSetByte 3 0 9; MSetByte 4 0 9; MResize 1 0] in
   map snd tr2 = [MDone; MDone; MErr EType; MErr EType; MErr EByteLength] /\ map (contents st2) [0; 1; 2]%nat = [Some [9]; Some [1;2]; Some [0;0]]%N).
Proof. intros []; vm_compute; repeat split; reflexivity. Qed.
(** C80_new: each reason for refusing, and the arguments accepted *)
Example C80_new_case : map snd (snd (mrun true ms_start
  [MBytes [1;2]%N; MByteArray [1;2;3]%N;
   MBuffer (mkNew (Some 0%nat) None None (Some true) None (Some true)); MBuffer (mkNew None (Some (-1)) None None None None);
   MBuffer (mkNew None (Some (-1)) None None None (Some true)); MBuffer (mkNew (Some 0%nat) None (Some 5) None (Some false) None);
   MBuffer (mkNew (Some 1%nat) None (Some 5) None (Some false) None); MBuffer (mkNew (Some 1%nat) None (Some 2) None None None);
   MBuffer (of_data 3 true false); MBuffer (of_data 3 false false); MBuffer (of_data 3 false true)])) =
  [MNew; MNew; MErr EValue; MErr EValue; MNew; MErr EValue; MNew; MErr EByteLength; MNew; MErr EAssert; MNew] /\
  map snd (snd (mrun false ms_start [MByteArray [1;2;3]%N; MBuffer (of_data 0 true false); MBuffer (of_data 1 true false)])) = [MNew; MNew; MErr EType].
Proof. vm_compute. split; reflexivity. Qed.
(** C80_pinned: extending the bytearray fails while a memoryview of it, or a readonly buffer that wraps it, is open, and not because of a copy *)
Example C80_pinned_case : forall p, let '(st, tr) := mrun p ms_start
  [MByteArray [1;2]%N; MBuffer (of_data 0 true false); MData 1; MExtend 0 [3]%N; MBuffer (of_data 0 false true); MExtend 0 [4]%N; MClose 3; MExtend 0 [5]%N;
   MBuffer (mkNew (Some 0%nat) None (Some 9) None (Some false) None); MView 0; MResize 4 1; MRelease 5; MResize 4 1] in
  map snd tr = [MNew; MNew; MNew; MDone; MNew; MBufferError; MDone; MDone; MNew; MNew; MBufferError; MDone; MDone] /\ map (contents st) [0; 1; 4]%nat = [Some [1]; Some [1;2]; Some [1]]%N.
Proof. intros []; vm_compute; split; reflexivity. Qed.
(** C80_close: closing a buffer while its data is used fails on new Pythons only *)
Example C80_close_case : forall p, map snd (snd (mrun p ms_start [MByteArray [1;2]%N; MBuffer (of_data 0 false true); MData 1; MSlice 2 0 1; MRelease 2; MClose 1; MRelease 3; MClose 1])) =
  [MNew; MNew; MNew; MNew; MDone; if p then MBufferError else MDone; MDone; MDone].
Proof. intros []; vm_compute; reflexivity. Qed.
(** C80_fixed_partial: a copy keeps its length *)
Example C80_fixed_case : forall p, let '(st, tr) := mrun p ms_start [MByteArray [1;2]%N; MBuffer (of_data 0 true false); MView 0; MBuffer (of_data 2 false false); MExtend 0 [3]%N; MRelease 2; MExtend 0 [3]%N; MClose 3; MExtend 0 [3]%N] in
  map snd tr = [MNew; MNew; MNew; MNew; MBufferError; MDone; MBufferError; MDone; MDone] /\ map (contents st) [0; 1; 3]%nat = [Some [1;2;3]; Some [1;2]; None]%N.
Proof. intros []; vm_compute; split; reflexivity. Qed.
