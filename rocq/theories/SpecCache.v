(** C25: what a cache that keeps the [n] values used last contains. *)
From Coq Require Import List Bool Arith.
From Verif Require Import Base ModelHeap ModelValue ModelEncode.
Import ListNotations.

(** The different keys among some uses *)
Definition distinct_of {K} (uses ks : list K) : Prop := NoDup ks /\ forall k, In k ks <-> In k uses.
(** [k] was used, and fewer than [n] different keys were used since. The uses are listed newest first. *)
Definition recent {K} (n : nat) (uses : list K) (k : K) : Prop :=
  exists later before ks, uses = later ++ k :: before /\ ~ In k later /\ distinct_of later ks /\ (length ks < n)%nat.
(** Looking values up one after another, encode.py:840-846 *)
Definition lookups (H : heap) (vs : list val) (st : est) : est := fold_left (fun st v => snd (deduplicate H v st)) vs st.
(** Their keys, newest first; values that are not hashable have none *)
Definition uses_of (H : heap) (vs : list val) : list (htype * hkey) :=
  rev (flat_map (fun v => match hash_key H v with Some k => [k] | None => [] end) vs).
