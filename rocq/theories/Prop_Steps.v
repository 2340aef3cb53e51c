(** C49: chains of steps. C55: the registry of tag readers. *)
From Coq Require Import List Bool Lia Arith NArith.
From Verif Require Import Base Dict ModelTags ModelSteps.
Import ListNotations.
Open Scope nat_scope.

(** * C49 *)
(** [x] occurs in [l] directly before [y] *)
Definition directly_before {A} (x y : A) (l : list A) (pos : nat) : Prop := nth_error l pos = Some x /\ nth_error l (S pos) = Some y.
(** The rules a trace of offers to [n] steps obeys. *)
Record in_order {X} (n : nat) (t : list (seen X)) : Prop := {
  (* a step other than the first is offered exactly what the step before it passed on, right then *)
  io_offer : forall pos i x, nth_error t pos = Some (Offer (S i) x) -> exists p, pos = S p /\ nth_error t p = Some (Delegate i x);
  (* what a step passes on goes to the next step, or there is none and the unhandled error carries it *)
  io_delegate : forall pos i x, nth_error t pos = Some (Delegate i x) ->
    nth_error t (S pos) = Some (if S i <? n then Offer (S i) x else Fail x);
  (* the unhandled error is only for what the last step passed on (or, without steps, for what was given) *)
  io_fail : forall pos x, nth_error t pos = Some (Fail x) -> n = 0 \/ exists p, pos = S p /\ nth_error t p = Some (Delegate (n - 1) x);
  io_index : forall pos i x, nth_error t pos = Some (Offer i x) \/ nth_error t pos = Some (Delegate i x) -> i < n }.

Section Traces.
Variable X : Type.
(** A trace that may follow anything: the rules hold, and it starts with the offer of [x] to step [i] (or the failure). *)
Definition hd_rule (n : nat) (prev : option (seen X)) (e : seen X) : Prop :=
  match e with
  | Offer 0 _ => match prev with Some (Delegate _ _) => False | _ => 0 < n end
  | Offer (S i) x => prev = Some (Delegate i x) /\ S i < n
  | Delegate i x => i < n /\ match prev with Some (Delegate _ _) => False | _ => True end
  | Fail x => (n = 0 \/ prev = Some (Delegate (n - 1) x)) /\ match prev with Some (Delegate i y) => S i = n /\ x = y | _ => n = 0 end
  end.
Fixpoint rules (n : nat) (prev : option (seen X)) (t : list (seen X)) : Prop :=
  match t with
  | [] => match prev with Some (Delegate _ _) => False | _ => True end
  | e :: t => hd_rule n prev e /\ rules n (Some e) t
  end.
Lemma rules_app n t : forall prev t', rules n prev t -> (forall p, match p with Some (Delegate _ _) => False | _ => True end -> rules n p t') -> rules n prev (t ++ t').
Proof. induction t as [|e t IH]; cbn; intros prev t' Rt Q; [apply Q; auto|]. destruct Rt. split; auto. Qed.
Lemma rules_in_order n t : rules n None t -> in_order n t.
Proof.
  assert (G : forall t prev, rules n prev t ->
    (forall pos i x, nth_error t pos = Some (Offer (S i) x) -> match pos with 0 => prev = Some (Delegate i x) | S p => nth_error t p = Some (Delegate i x) end) /\
    (forall pos i x, nth_error t pos = Some (Delegate i x) -> nth_error t (S pos) = Some (if S i <? n then Offer (S i) x else Fail x)) /\
    (forall pos x, nth_error t pos = Some (Fail x) -> n = 0 \/ match pos with 0 => prev = Some (Delegate (n - 1) x) | S p => nth_error t p = Some (Delegate (n - 1) x) end) /\
    (forall pos i x, nth_error t pos = Some (Offer i x) \/ nth_error t pos = Some (Delegate i x) -> i < n)).
  { clear t. induction t as [|e t IH]; intros prev Rt; cbn in Rt.
    - repeat split; intros [|?]; intros; try discriminate; destruct H; discriminate.
    - destruct Rt as [H Rt]. destruct (IH _ Rt) as (A & B & C & D). repeat split.
      + intros [|p] i x E; cbn in E; [injection E as ->; apply H|]. specialize (A p i x E). destruct p; cbn; auto.
      + intros [|p] i x E; [|apply (B p i x E)]. cbn in E. injection E as ->. cbn [nth_error]. destruct t as [|e' t]; [destruct Rt|]. destruct Rt as [H' _]. cbn [nth_error]. f_equal.
        destruct e' as [[|j] y|j y|y]; cbn in H'.
        * destruct H'.
        * destruct H' as [E L]. injection E as <- <-. destruct (Nat.ltb_spec (S i) n); auto; lia.
        * destruct H' as [_ []].
        * destruct H' as [_ [L <-]]. destruct (Nat.ltb_spec (S i) n); auto; lia.
      + intros [|p] x E; cbn in E; [injection E as ->; destruct H as [H _]; auto|]. specialize (C p x E). destruct p; cbn; auto.
      + intros [|p] i x E; [|apply (D p i x E)]. cbn in E. destruct e as [[|j] y|j y|y]; destruct E as [E|E]; try discriminate; injection E as <- _; cbn in H; try tauto. destruct prev as [[]|]; auto; destruct H. }
  intros Rt. destruct (G t None Rt) as (A & B & C & D). constructor; auto.
  - intros [|p] i x E; [specialize (A 0 i x E); discriminate|]. exists p. split; auto. apply (A (S p) i x E).
  - intros [|p] x E; destruct (C _ x E) as [|Q]; auto; [discriminate|right; eauto].
Qed.
Variables R E : Type.
Lemma with_step_rules start n (steps : list (X -> act X R E)) : (forall x p, match p with Some (Delegate _ _) => False | _ => True end -> rules n p (snd (start x))) ->
  forall i x prev, i + length steps = n -> (i = 0 -> match prev with Some (Delegate _ _) => False | _ => True end) ->
    (forall j, i = S j -> prev = Some (Delegate j x)) -> rules n prev (snd (with_step start i steps x)).
Proof.
  intros St. induction steps as [|s rest IH]; intros i x prev L P0 P1; cbn [with_step length] in *.
  - cbn. split; auto. assert (i = n) by lia. subst i. destruct n as [|m].
    + split; auto. destruct prev as [[]|]; auto. destruct (P0 eq_refl).
    + rewrite (P1 m eq_refl). cbn. rewrite Nat.sub_0_r. auto.
  - assert (F : forall a p, match p with Some (Delegate _ _) => False | _ => True end -> rules n p (snd (follow start i (with_step start (S i) rest) a))).
    { induction a as [r|e|y k IHk|y k IHk]; intros p Hp; cbn [follow]; [exact Hp|exact Hp| |].
      - specialize (IH (S i) y (Some (Delegate i y))). destruct (with_step start (S i) rest y) as [r t]. cbn [snd] in *.
        assert (Rt : rules n (Some (Delegate i y)) t) by (apply IH; [lia|discriminate|intros j [= <-]; auto]).
        assert (HD : hd_rule n p (Delegate i y)) by (split; [lia|auto]).
        assert (Z : rules n p (Delegate i y :: t ++ snd (follow start i (with_step start (S i) rest) (k r)))).
        { split; auto. apply rules_app; auto. }
        destruct (follow start i (with_step start (S i) rest) (k r)) as [r' t']. destruct r as [r|[| |]]; try exact Z. split; auto.
      - pose proof (St y p Hp) as Sy. destruct (start y) as [r t]. cbn [snd] in *.
        assert (Z : rules n p (t ++ snd (follow start i (with_step start (S i) rest) (k r)))) by (apply rules_app; auto).
        destruct (follow start i (with_step start (S i) rest) (k r)) as [r' t']. destruct r as [r|[| |]]; try exact Z. exact Sy. }
    specialize (F (s x) (Some (Offer i x)) I). destruct (follow start i _ (s x)) as [r t]. cbn [snd] in *. cbn [rules]. split; auto.
    destruct i as [|j]; [|split; [apply P1; auto|lia]]. cbn. specialize (P0 eq_refl). destruct prev as [[]|]; auto; lia.
Qed.
Lemma offer_rules (steps : list (X -> act X R E)) fuel : forall x p, match p with Some (Delegate _ _) => False | _ => True end -> rules (length steps) p (snd (offer fuel steps x)).
Proof.
  induction fuel as [|fuel IH]; intros x p Hp; cbn [offer]; [exact Hp|]. apply with_step_rules; auto. discriminate.
Qed.
End Traces.
(** Whatever the steps do — return, raise, delegate any number of times with any values, start the encoding or decoding of
    other values — the offers obey the rules above, and begin with the first step. *)
Theorem C49_in_order : forall X R E (steps : list (X -> act X R E)) fuel x, in_order (length steps) (snd (offer fuel steps x)).
Proof. intros. apply rules_in_order, offer_rules. exact I. Qed.
Print Assumptions C49_in_order.
Theorem C49_first : forall X R E (steps : list (X -> act X R E)) fuel x, 0 < fuel ->
  hd_error (snd (offer fuel steps x)) = Some (match steps with [] => Fail x | _ => Offer 0 x end).
Proof. intros X R E steps [|fuel] x L; [lia|]. cbn. destruct steps as [|s rest]; cbn; auto. destruct (follow _ _ _ _); auto. Qed.
Print Assumptions C49_first.

(** Steps that handle or pass on (possibly something else), at the end: what is returned or raised is what the first step
    that handles returns or raises, every step before it is offered what the previous one passed, in order, each once, and
    none after it; when none handles, the unhandled error carries what the last one passed. *)
Inductive verdict (X R E : Type) : Type := Handle (r : result X R E) | Pass (x : X).
Arguments Handle {X R E}. Arguments Pass {X R E}.
Definition as_act {X R E} (v : verdict X R E) : act X R E :=
  match v with
  | Handle (Returns r) => Return r
  | Handle (Raises e) => Throw e
  | Pass x => Next x (fun r => match r with Returns r => Return r | Raises e => Throw e end)
  end.
(** The values offered to the steps before the first one that handles, and to that one *)
Fixpoint passed {X R E} (steps : list (X -> verdict X R E)) (x : X) : list X :=
  match steps with
  | [] => []
  | s :: rest => x :: match s x with Handle _ => [] | Pass y => passed rest y end
  end.
Fixpoint handled {X R E} (steps : list (X -> verdict X R E)) (x : X) : result X R E :=
  match steps with
  | [] => Raises (Unhandled x)
  | s :: rest => match s x with Handle r => r | Pass y => handled rest y end
  end.
Definition offers {X} (t : list (seen X)) : list (nat * X) := flat_map (fun e => match e with Offer i x => [(i, x)] | _ => [] end) t.
Theorem C49_simple_steps : forall X R E (steps : list (X -> verdict X R E)) fuel x, 0 < fuel ->
  (forall s y, In s steps -> s y <> Handle (Raises Recursion)) ->
  fst (offer fuel (map (fun s y => as_act (s y)) steps) x) = handled steps x /\
  offers (snd (offer fuel (map (fun s y => as_act (s y)) steps) x)) = combine (seq 0 (length (passed steps x))) (passed steps x).
Proof.
  intros X R E steps [|fuel] x L NR; [lia|]. cbn [offer]. generalize (offer fuel (map (fun s y => as_act (s y)) steps)). intros start. generalize 0. clear L. revert x.
  induction steps as [|s rest IH]; intros x i; cbn [map with_step handled passed].
  - cbn. auto.
  - assert (NR' : forall s y, In s rest -> s y <> Handle (Raises Recursion)) by (intros s' y I; apply NR; right; auto).
    destruct (s x) as [[r|e]|y] eqn:S; cbn [as_act follow].
    + cbn. auto.
    + cbn. auto.
    + specialize (IH NR' y (Datatypes.S i)). destruct (with_step start (Datatypes.S i) _ y) as [r t]. cbn [fst snd] in IH. destruct IH as [Q P].
      cut (fst (match r with Raises Recursion => (r, Delegate i y :: t) | _ => let '(r', t') := follow start i (with_step start (Datatypes.S i) (map (fun s y => as_act (s y)) rest)) match r with Returns r => Return r | Raises e => Throw e end in (r', Delegate i y :: t ++ t') end) = r /\
           snd (match r with Raises Recursion => (r, Delegate i y :: t) | _ => let '(r', t') := follow start i (with_step start (Datatypes.S i) (map (fun s y => as_act (s y)) rest)) match r with Returns r => Return r | Raises e => Throw e end in (r', Delegate i y :: t ++ t') end) = Delegate i y :: t).
      { intros [E1 E2]. destruct (match r with Raises Recursion => _ | _ => _ end) as [r' t']. cbn [fst snd] in *. subst r' t'. split; auto. cbn. f_equal. exact P. }
      destruct r as [r|[z|e|]]; cbn; rewrite ?app_nil_r; auto.
Qed.
Print Assumptions C49_simple_steps.
(** Numbers: the first step handles 7 and passes on one more, the second passes on the double, the third handles
    everything below 20. *)
Definition three : list (nat -> verdict nat nat unit) :=
  [fun x => if x =? 7 then Handle (Returns 0) else Pass (x + 1); fun x => Pass (x * 2); fun x => if x <? 20 then Handle (Returns x) else Pass x].
Example C49_case : (forall s y, In s three -> s y <> Handle (Raises Recursion)) /\
  handled three 3 = Returns 8 /\ passed three 3 = [3; 4; 8] /\ handled three 7 = Returns 0 /\ handled three 30 = Raises (Unhandled 62) /\
  snd (offer 1 (map (fun s y => as_act (s y)) three) 30) = [Offer 0 30; Delegate 0 31; Offer 1 31; Delegate 1 62; Offer 2 62; Delegate 2 62; Fail 62].
Proof.
  split; [|repeat split; reflexivity]. intros s y [<-|[<-|[<-|[]]]]; cbv beta; [destruct (y =? 7)|idtac|destruct (y <? 20)]; discriminate.
Qed.

(** * C55 *)
(** The reader registered last for a tag, directly, in a list of tags, or by copying another registry *)
Fixpoint last_in {F} (t : stag) (o : reg_op F) : option F :=
  match o with
  | Register tags f => if existsb (stag_beq t) tags then Some f else None
  | RegisterAll ops => fold_left (fun r o => match last_in t o with Some f => Some f | None => r end) ops None
  end.
Definition last_registered {F} (t : stag) (ops : list (reg_op F)) : option F := last_in t (RegisterAll ops).
Lemma stag_spec a b : stag_beq a b = true <-> a = b.
Proof. split; [apply internal_stag_dec_bl|apply internal_stag_dec_lb]. Qed.
Lemma lookup_register {F} t tags (f : F) : forall r, lookup t (register tags f r) = if existsb (stag_beq t) tags then Some f else lookup t r.
Proof.
  unfold lookup, register. induction tags as [|u tags IH]; intros r; cbn; auto. rewrite IH. destruct (existsb (stag_beq t) tags) eqn:E; rewrite ?orb_true_r; auto. rewrite orb_false_r.
  rewrite (dget_dset stag_beq stag_spec). destruct (stag_beq t u) eqn:B; auto.
Qed.
Lemma reg_op_rect' {F} (P : reg_op F -> Prop) : (forall tags f, P (Register tags f)) -> (forall ops, Forall P ops -> P (RegisterAll ops)) -> forall o, P o.
Proof. intros A B. fix IH 1. intros [tags f|ops]; [apply A|]. apply B. induction ops; constructor; auto. Qed.
Theorem C55_last_registered : forall F (ops : list (reg_op F)) t, lookup t (reg_run ops) = last_registered t ops.
Proof.
  intros F ops t.
  assert (ND : forall ops (r : registry F), NoDup (map fst r) -> NoDup (map fst (fold_left reg_apply ops r))).
  { assert (D : forall (l : list (stag * F)) r, NoDup (map fst r) -> NoDup (map fst (register_all l r))).
    { unfold register_all. induction l as [|[u g] l IH]; intros r N; cbn; auto. apply IH. apply dset_NoDup; auto. apply stag_spec. }
    assert (D2 : forall tags f (r : registry F), NoDup (map fst r) -> NoDup (map fst (register tags f r))).
    { unfold register. induction tags as [|u tags IH]; intros f r N; cbn; auto. apply IH. apply dset_NoDup; auto. apply stag_spec. }
    induction ops0 as [|o os IH]; intros r N; cbn; auto. apply IH. destruct o; cbn; auto. }
  assert (RA : forall (l r : registry F), NoDup (map fst l) -> lookup t (register_all l r) = match lookup t l with Some f => Some f | None => lookup t r end).
  { unfold lookup, register_all. induction l as [|[u g] l IH]; intros r N; cbn; auto. inversion N; subst. rewrite IH by auto. rewrite (dget_dset stag_beq stag_spec).
    destruct (stag_beq t u) eqn:B; auto. apply stag_spec in B as ->. destruct (dget stag_beq u l) as [h|] eqn:G; auto. exfalso. apply H1. apply in_map_iff.
    apply (dget_Some_in stag_beq stag_spec) in G. exists (u, h). auto. }
  assert (G : forall o (r : registry F), lookup t (reg_apply r o) = match last_in t o with Some f => Some f | None => lookup t r end).
  { induction o as [tags f|os IH] using reg_op_rect'; intros r; cbn [reg_apply last_in].
    - rewrite lookup_register. destruct (existsb _ _); auto.
    - rewrite RA by (apply ND; constructor).
      assert (Q : forall r a, lookup t r = a -> lookup t (fold_left reg_apply os r) = fold_left (fun r o => match last_in t o with Some f => Some f | None => r end) os a).
      { clear r. induction IH as [|o os Ho _ IH]; intros r a E; cbn; auto. apply IH. rewrite Ho, E. auto. }
      rewrite (Q [] None eq_refl). destruct (fold_left _ _ _); auto. }
  unfold last_registered, reg_run. specialize (G (RegisterAll ops) []). cbn [reg_apply] in G. rewrite RA in G by (apply ND; constructor).
  change (lookup t (@nil (stag * F))) with (@None F) in G. destruct (lookup t (fold_left reg_apply ops [])); destruct (last_in t (RegisterAll ops)); auto; discriminate.
Qed.
Print Assumptions C55_last_registered.
Example C55_case : let ops := [Register [kNull; kTrue] 1; RegisterAll [Register [kTrue] 2; Register [kDate] 3]; Register [kDate] 4] in
  map (fun t => lookup t (reg_run ops)) [kNull; kTrue; kDate; kFalse] = [Some 1; Some 2; Some 4; None].
Proof. reflexivity. Qed.
