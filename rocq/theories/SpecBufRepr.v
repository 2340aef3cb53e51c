(** C83: the buffers a program can have. *)
From Coq Require Import List NArith ZArith Bool.
From Verif Require Import Base ModelTags ModelBuffer.
Import ListNotations.
Open Scope Z_scope.

(** Made by the constructor from data or with a length, then resized any number of times *)
Inductive made : jsbuf -> Prop :=
| made_new d mx rs ro b : jsbuf_new d mx rs ro = Ok b -> made b
| made_alloc n mx rs ro b : jsbuf_alloc n mx rs ro = Ok b -> made b
| made_resize b n b' : made b -> jsbuf_resize b n = Ok b' -> made b'.
