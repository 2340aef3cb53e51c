(** The text that JSRepr writes for a value of which everything is shown, and what it evaluates to. *)
From Coq Require Import Ascii String List NArith ZArith Bool Arith Lia ZifyBool.
From Verif Require Import Base Dict SpecArray SpecNumber ModelTags ModelArray ModelValue SpecObject ModelObject SpecMap ModelMap ModelHeap ModelEncode ModelReprText
  ValueFacts ArrayFacts ArrayFacts2 ArrayFacts3 ObjectFacts Prop_Object2 HashFacts MapFacts SpecEq SpecRepr ReprFacts ReprFacts2 ReprFacts3 ReprFacts4 ReprFacts5.
From Verif Require ModelEq.
Import ListNotations.
Open Scope list_scope.
Open Scope nat_scope.

Lemma strip_space r : strip (TSpace :: r) = strip r. Proof. reflexivity. Qed.
Lemma strip_line n r : strip (TLine n :: r) = strip r. Proof. reflexivity. Qed.
Lemma strip_nil : strip [] = []. Proof. reflexivity. Qed.
Lemma strip_name n r : strip (TName n :: r) = TName n :: strip r. Proof. reflexivity. Qed.
Lemma strip_int n r : strip (TInt n :: r) = TInt n :: strip r. Proof. reflexivity. Qed.
Lemma strip_str n r : strip (TStr n :: r) = TStr n :: strip r. Proof. reflexivity. Qed.
Lemma strip_call f args : strip (call [TName f] args) = TName f :: TSym LPar :: strip args ++ [TSym RPar].
Proof. unfold call. rewrite !strip_app. reflexivity. Qed.
Lemma strip_braces l : strip (braces l) = TSym LBrace :: strip l ++ [TSym RBrace].
Proof. unfold braces. rewrite !strip_app. reflexivity. Qed.
Lemma strip_brackets l : strip (brackets l) = TSym LBracket :: strip l ++ [TSym RBracket].
Proof. unfold brackets. rewrite !strip_app. reflexivity. Qed.

Lemma list_eq_nil {A} (l : list A) : l = [] \/ l <> []. Proof. destruct l; [left; reflexivity|right; discriminate]. Qed.
Lemma val_none c : c = VNone \/ c <> VNone. Proof. destruct c; auto; right; discriminate. Qed.

Section Text.
Variable H : heap.
Variable R : rsettings.
Variable t : nat.
Variable isidentifier : list N -> bool.
Variable isspace : N -> bool.
Variable whole : val -> bool.
Variable is_enum : nat -> bool.
Variable keyword : list N -> bool.
Variable nfkc : list N -> list N.
Variable float_repr : N -> list N.
Notation parses := (parses keyword nfkc).
Notation is_arg := (is_arg keyword nfkc).
Notation is_pair := (is_pair keyword nfkc).
Notation plain_name := (plain_name keyword nfkc).
Notation evaluates := (evaluates H float_repr).
Notation good := (good H float_repr).
Hypothesis INDENT : match r_indent R with None => True | Some n => (0 <= n)%Z end.
Hypothesis PLAIN : Forall plain_name (map chars ["JSObject"; "JSArray"; "JSMap"; "JSSet"; "JSError"; "name"; "stack"; "cause"]%string).
Lemma plain_of (s : string) : In s ["JSObject"; "JSArray"; "JSMap"; "JSSet"; "JSError"; "name"; "stack"; "cause"]%string -> plain_name (chars s).
Proof. intros I. rewrite Forall_forall in PLAIN. apply PLAIN. apply in_map. exact I. Qed.

Lemma parses_arg ts e : parses ts e -> is_arg ts (APos, e).
Proof.
  intros P. constructor; [exact P| |].
  - intros k r ->. destruct P as [_ P]. specialize (P (S (length (TName k :: TSym Equals :: r))) [] (Nat.le_succ_diag_r _) Logic.I). rewrite expression_S in P. rewrite app_nil_r in P. discriminate.
  - intros r ->. destruct P as [_ P]. specialize (P (S (length (TSym StarStar :: r))) [] (Nat.le_succ_diag_r _) Logic.I). rewrite expression_S in P. rewrite app_nil_r in P. discriminate.
Qed.
Lemma leaf_parses v : shown_leaf whole v -> parses (strip (leaf_repr whole v)) (leaf_expr v).
Proof.
  intros S. destruct v as [| | |[|]|z|b|s|o]; cbn [leaf_repr leaf_expr shown_leaf] in *; try apply parses_name.
  - rewrite S. apply parses_lit. left. eauto.
  - destruct S as [m [e ->]]. apply parses_lit. right. left. eauto.
  - rewrite S. apply parses_lit. right. right. eauto.
  - destruct S.
Qed.

(** ** Running a method *)
Section Method.
Variable r : val -> M (list tok).
Variable level : nat.
Variable s : ModelEq.kset.
Variable P : val -> Prop.
Definition runs {A} (m : M A) (x : A) : Prop := m s = (Ok x, s).
Lemma runs_ret {A} (x : A) : runs (ret x) x. Proof. reflexivity. Qed.
Lemma runs_bind {A B} (m : M A) (f : A -> M B) x y : runs m x -> runs (f x) y -> runs (andThen m f) y.
Proof. unfold runs, andThen. intros -> E. exact E. Qed.
Lemma islice_all {A} (l : list A) n : (zlen l <= n)%Z -> runs (islice l n) l.
Proof.
  intros L. unfold runs, islice. unfold zlen in L. destruct (n <? 0)%Z eqn:N; [lia|]. rewrite firstn_all2 by lia. reflexivity.
Qed.
Hypothesis IH : forall v, P v -> exists ts e, runs (r v) ts /\ parses (strip ts) e /\ evaluates v e.
(** An item whose text is what [r] writes *)
Definition ready {K} (d : item K) : Prop := runs (r (dv d)) (dt d) /\ parses (strip (dt d)) (de d) /\ good d.
Lemma choose {K} (kvs : list (K * val)) : (forall k v, In (k, v) kvs -> P v) ->
  exists ds : list (item K), map (fun d => (dk d, dv d)) ds = kvs /\ Forall ready ds.
Proof.
  induction kvs as [|[k v] kvs IHl]; intros F; [exists []; split; constructor|].
  destruct IHl as [ds [E FD]]; [intros k' v' I; apply (F k' v'); right; exact I|]. destruct (IH v) as [ts [e [E1 [E2 E3]]]]; [apply (F k v); left; reflexivity|].
  exists (mkItem K k v ts e :: ds). split; [cbn; f_equal; exact E|]. constructor; [|exact FD]. split; [exact E1|split; [exact E2|exact E3]].
Qed.
Lemma choose_keys {K} (ds : list (item K)) kvs : map (fun d => (dk d, dv d)) ds = kvs -> map dk ds = map fst kvs /\ map dv ds = map snd kvs.
Proof. intros <-. rewrite !map_map. auto. Qed.
Lemma ready_good {K} (ds : list (item K)) : Forall ready ds -> Forall good ds.
Proof. apply Forall_impl. intros d [_ [_ G]]. exact G. Qed.
Lemma each_ready {K A} (piece : A -> M (list tok)) (src : item K -> A) (out : item K -> list tok) ds : (forall d, ready d -> runs (piece (src d)) (out d)) -> Forall ready ds ->
  runs (each piece (map src ds)) (map out ds).
Proof.
  intros W F. induction F as [|d ds D F IHl]; [reflexivity|]. cbn [map each]. eapply runs_bind; [apply W; exact D|]. eapply runs_bind; [exact IHl|]. reflexivity.
Qed.
(** ** Joining *)
Definition trail : bool := match r_indent R with None => false | Some _ => true end.
Lemma join_ok pieces : exists ts, join R level pieces = Ok ts /\ strip ts = sepd (map strip pieces) trail.
Proof.
  assert (exists ts, join R level pieces = Ok ts) as [ts E].
  { unfold join. destruct (r_indent R) as [n|]; [|eauto]. destruct pieces; [eauto|]. destruct (n <? 0)%Z eqn:N; [lia|eauto]. }
  exists ts. split; [exact E|]. exact (strip_join _ _ _ _ E).
Qed.
Lemma starts_ok n x rest ts : join R level ((TName n :: x) :: rest) = Ok ts -> exists b, starts_with_space isspace ts = Ok b.
Proof.
  unfold join. destruct (r_indent R) as [i|].
  - destruct (i <? 0)%Z; [discriminate|]. intros [= <-]. eexists. reflexivity.
  - intros [= <-]. eexists. destruct rest; reflexivity.
Qed.
Lemma single_ok pieces ts : strip ts = sepd (map strip pieces) trail -> exists tr, strip (match single_piece pieces with Some p => p | None => ts end) = sepd (map strip pieces) tr.
Proof.
  intros E. unfold single_piece. destruct pieces as [|p [|q pieces]]; try (exists trail; exact E). destruct (existsb _ p); [exists trail; exact E|]. exists false. cbn. rewrite app_nil_r. reflexivity.
Qed.
(** ** Pieces *)
Definition int_piece (d : item val) : list tok := [TInt (match dk d with VInt z => z | _ => 0%Z end)] ++ [TSym Colon; TSpace] ++ dt d.
Definition str_piece (d : item val) : list tok := [TStr (match dk d with VStr n => n | _ => [] end)] ++ [TSym Colon; TSpace] ++ dt d.
Definition name_piece (d : item (option (list N))) : list tok := [TName (match dk d with Some n => n | _ => [] end); TSym Equals] ++ dt d.
Lemma int_pairs ds : Forall ready ds -> (forall d, In d ds -> exists z, dk d = VInt z) -> Forall2 is_pair (map strip (map int_piece ds)) (map (fun d => (ELit (dk d), de d)) ds).
Proof.
  intros F K. induction F as [|d ds [_ [D _]] F IHl]; [constructor|]. cbn [map]. constructor; [|apply IHl; intros d' I; apply K; right; exact I].
  destruct (K d (or_introl eq_refl)) as [z E]. unfold int_piece. rewrite E. exists [TInt z], (strip (dt d)). split; [reflexivity|]. split; [|exact D]. apply parses_lit. left. eauto.
Qed.
Lemma str_pairs ds : Forall ready ds -> (forall d, In d ds -> exists z, dk d = VStr z) -> Forall2 is_pair (map strip (map str_piece ds)) (map (fun d => (ELit (dk d), de d)) ds).
Proof.
  intros F K. induction F as [|d ds [_ [D _]] F IHl]; [constructor|]. cbn [map]. constructor; [|apply IHl; intros d' I; apply K; right; exact I].
  destruct (K d (or_introl eq_refl)) as [z E]. unfold str_piece. rewrite E. exists [TStr z], (strip (dt d)). split; [reflexivity|]. split; [|exact D]. apply parses_lit. right. right. eauto.
Qed.
Lemma name_args ds : Forall ready ds -> (forall d, In d ds -> exists n, dk d = Some n /\ plain_name n) -> Forall2 is_arg (map strip (map name_piece ds)) (map (fun d => (arg_of (dk d), de d)) ds).
Proof.
  intros F K. induction F as [|d ds [_ [D _]] F IHl]; [constructor|]. cbn [map]. constructor; [|apply IHl; intros d' I; apply K; right; exact I].
  destruct (K d (or_introl eq_refl)) as [z [E [K1 K2]]]. unfold name_piece. rewrite E. cbn [arg_of]. apply ia_key; assumption.
Qed.
Lemma plain_exprs {K} (ds : list (item K)) : Forall ready ds -> Forall2 parses (map strip (map dt ds)) (map de ds).
Proof. intros F. induction F as [|d ds [_ [D _]] F IHl]; [constructor|]. cbn [map]. constructor; assumption. Qed.

(** ** Properties *)
Lemma pieces_all {K} (piece : list N * val -> M (list tok)) (out : item K -> list tok) (src : item K -> list N * val) props maxprops ds :
  props = map src ds -> (forall d, ready d -> runs (piece (src d)) (out d)) -> Forall ready ds -> (zlen props <= maxprops)%Z ->
  runs (property_pieces R piece props maxprops) (map out ds).
Proof.
  intros E W F L. unfold property_pieces. eapply runs_bind; [apply islice_all; lia|]. eapply runs_bind; [rewrite E; apply each_ready; [exact W|exact F]|].
  destruct (maxprops <? zlen props)%Z eqn:Q; [lia|]. rewrite app_nil_r. reflexivity.
Qed.
Lemma ident_props (x : jsobj val) : (match jo_props x with [] => false | _ => forallb (fun p => isidentifier (fst p)) (jo_props x) end) = true -> jo_props x <> [] /\ forallb isidentifier (map fst (jo_props x)) = true.
Proof.
  intros E. destruct (jo_props x) as [|p l]; [discriminate|]. split; [discriminate|]. rewrite <- E. clear. induction (p :: l) as [|q m IHl]; [reflexivity|]. cbn. f_equal. exact IHl.
Qed.
Section Props.
Variable x : jsobj val.
Hypothesis PX : forall n v, In (n, v) (jo_props x) -> P v.
Hypothesis SN : shown_names isidentifier keyword nfkc float_repr (map fst (jo_props x)).
Definition str_src (d : item val) : list N * val := (match dk d with VStr n => n | _ => [] end, dv d).
Definition name_src (d : item (option (list N))) : list N * val := (match dk d with Some n => n | _ => [] end, dv d).
Lemma str_items : exists ds, ds_strs H float_repr x ds /\ Forall ready ds /\ jo_props x = map str_src ds /\ (forall d, In d ds -> exists z, dk d = VStr z).
Proof.
  destruct (choose (map (fun p => (VStr (fst p), snd p)) (jo_props x))) as [ds [E F]].
  { intros k v I. apply in_map_iff in I as [[n w] [Q I]]. injection Q as _ <-. eapply PX. exact I. }
  destruct (choose_keys _ _ E) as [E1 E2]. exists ds. rewrite !map_map in *. split; [|split; [exact F|split]].
  - unfold ds_strs. rewrite map_map. rewrite E1, E2. split; [reflexivity|]. split; [reflexivity|apply ready_good; exact F].
  - assert (map (fun d => (match fst d with VStr n => n | _ => [] end, snd d)) (map (fun d => (dk d, dv d)) ds) = map str_src ds) as <- by (rewrite map_map; reflexivity).
    rewrite E, map_map. cbn [fst snd]. rewrite <- (map_id (jo_props x)) at 1. apply map_ext. intros []. reflexivity.
  - intros d I. apply (in_map dk) in I. rewrite E1 in I. apply in_map_iff in I as [p [Q _]]. exists (fst p). symmetry. exact Q.
Qed.
Lemma name_items_ : forallb isidentifier (map fst (jo_props x)) = true ->
  exists ds, ds_names H float_repr x ds /\ Forall ready ds /\ jo_props x = map name_src ds /\ (forall d, In d ds -> exists n, dk d = Some n /\ plain_name n).
Proof.
  intros ID. destruct SN as [_ [_ PL]]. specialize (PL ID). rewrite Forall_forall in PL.
  destruct (choose (map (fun p => (Some (fst p), snd p)) (jo_props x))) as [ds [E F]].
  { intros k v I. apply in_map_iff in I as [[n w] [Q I]]. injection Q as _ <-. eapply PX. exact I. }
  destruct (choose_keys _ _ E) as [E1 E2]. exists ds. rewrite !map_map in *. split; [|split; [exact F|split]].
  - unfold ds_names. rewrite map_map. rewrite E1, E2. split; [reflexivity|]. split; [reflexivity|apply ready_good; exact F].
  - assert (map (fun d => (match fst d with Some n => n | _ => [] end, snd d)) (map (fun d => (dk d, dv d)) ds) = map name_src ds) as <- by (rewrite map_map; reflexivity).
    rewrite E, map_map. cbn [fst snd]. rewrite <- (map_id (jo_props x)) at 1. apply map_ext. intros []. reflexivity.
  - intros d I. apply (in_map dk) in I. rewrite E1 in I. apply in_map_iff in I as [p [Q I]]. exists (fst p). split; [symmetry; exact Q|]. apply PL. apply in_map_iff. exists p. auto.
Qed.
Lemma str_runs ds maxprops : jo_props x = map str_src ds -> (forall d, In d ds -> exists z, dk d = VStr z) -> Forall ready ds -> (zlen (jo_props x) <= maxprops)%Z ->
  runs (property_pieces R (fun p => entry r [TStr (fst p)] (snd p)) (jo_props x) maxprops) (map str_piece ds).
Proof.
  intros E _ F L. apply (pieces_all _ str_piece str_src); try assumption. intros d [D _]. unfold entry, str_src. cbn [fst snd]. eapply runs_bind; [exact D|]. reflexivity.
Qed.
Lemma name_runs ds maxprops : jo_props x = map name_src ds -> Forall ready ds -> (zlen (jo_props x) <= maxprops)%Z ->
  runs (property_pieces R (kwarg r) (jo_props x) maxprops) (map name_piece ds).
Proof.
  intros E F L. apply (pieces_all _ name_piece name_src); try assumption. intros d [D _]. unfold kwarg, name_src. cbn [fst snd]. eapply runs_bind; [exact D|]. reflexivity.
Qed.
Lemma good_props : good_names float_repr (map fst (jo_props x)).
Proof. destruct SN as [A [B _]]. split; assumption. Qed.
End Props.

Definition result_of (m : M (list tok)) (a : nat) : Prop := exists ts e, runs m ts /\ parses (strip ts) e /\ evaluates (VRef a) e.
Lemma names_nonempty (x : jsobj val) ds : ds_names H float_repr x ds -> jo_props x <> [] -> exists d ds', ds = d :: ds'.
Proof. intros [_ [E _]] N. destruct ds; [|eauto]. destruct (jo_props x); [congruence|discriminate]. Qed.
(** The argument list: a display and then keyword arguments *)
Lemma display_args (first : list tok) e ds ts : parses first e -> ds <> [] -> Forall ready ds -> (forall d, In d ds -> exists n, dk d = Some n /\ plain_name n) -> strip ts = sepd (map strip (map name_piece ds)) trail ->
  forall f, plain_name f -> forall sp : bool, forall ft, strip ft = first ->
  parses (strip (call [TName f] (ft ++ [TSym Comma] ++ (if sp then [] else [TSpace]) ++ ts))) (ECall f ((APos, e) :: map (fun d => (arg_of (dk d), de d)) ds)).
Proof.
  intros PF NE F K E f [P1 P2] sp ft <-. rewrite strip_call, !strip_app, E. assert (strip (if sp then [] else [TSpace]) = []) as -> by (destruct sp; reflexivity).
  destruct ds as [|d ds]; [congruence|]. cbn [map strip filter app]. rewrite <- sepd_cons. apply (parses_call keyword nfkc f (strip ft :: map strip (map name_piece (d :: ds)))); try assumption.
  constructor; [apply parses_arg; exact PF|]. apply name_args; assumption.
Qed.

(** ** JSObject *)
Section Object.
Variable f : string.
Variable mk : jsobj val -> obj.
Hypothesis MK : makes float_repr (chars f) mk.
Hypothesis CL : class_of mk.
Hypothesis PF : plain_name (chars f).
Variable a : nat.
Variable x : jsobj val.
Hypothesis A : nth_error H a = Some (mk x).
Hypothesis PX : forall v, holds (mk x) v -> P v.
Hypothesis OK : arr_ok (jo_arr x).
Hypothesis SN : shown_names isidentifier keyword nfkc float_repr (map fst (jo_props x)).
Hypothesis NH : ~ holds (mk x) VHole.
Lemma holds_eq v : holds (mk x) v <-> In (Some v) (aabs (jo_arr x)) \/ exists n, In (n, v) (jo_props x).
Proof. destruct (class_facts mk x CL) as [_ [_ [HE _]]]. apply HE. Qed.
Lemma not_hole v : In (Some v) (aabs (jo_arr x)) \/ (exists n, In (n, v) (jo_props x)) -> v <> VHole.
Proof. intros I ->. apply NH. apply holds_eq. exact I. Qed.
Lemma prop_P n v : In (n, v) (jo_props x) -> P v.
Proof. intros I. apply PX. apply holds_eq. right. exists n. exact I. Qed.
Lemma no_names : jo_props x = [] -> ds_names H float_repr x []. Proof. intros E. unfold ds_names. rewrite E. repeat constructor. Qed.
Lemma empty_result : aabs (jo_arr x) = [] -> jo_props x = [] -> result_of (ret (call (names f) [])) a.
Proof.
  intros E1 E2. exists (call (names f) []), (ECall (chars f) []). split; [reflexivity|]. split.
  - unfold names. rewrite strip_call. destruct PF. apply (parses_call keyword nfkc (chars f) [] [] false); try assumption. constructor.
  - eapply (call_names H float_repr (chars f) mk MK CL a x A (good_props x SN) not_hole []); try assumption; [rewrite E2; reflexivity|rewrite E2; reflexivity|constructor].
Qed.
Hypothesis LA : no_trailing_hole (aabs (jo_arr x)).
Hypothesis LE : (zlen (aabs (jo_arr x)) <= 2 ^ 32 - 1)%Z.
Variable maxprops : Z.
Hypothesis MAX : (jo_len x <= maxprops)%Z.
Definition int_src (d : item val) : Z * val := (match dk d with VInt z => z | _ => 0%Z end, dv d).
Lemma int_items : exists ds, ds_ints H float_repr x ds /\ Forall ready ds /\ entries_from 0 (aabs (jo_arr x)) = map int_src ds /\ (forall d, In d ds -> exists z, dk d = VInt z).
Proof.
  destruct (choose (map (fun p => (VInt (fst p), snd p)) (entries_from 0 (aabs (jo_arr x))))) as [ds [E F]].
  { intros k v I. apply in_map_iff in I as [[n w] [Q I]]. injection Q as _ <-. apply PX, holds_eq. left. 
    assert (In w (map snd (entries_from 0 (aabs (jo_arr x))))) as IW by (apply in_map_iff; exists (n, w); auto). clear -IW. revert IW. generalize 0%Z. induction (aabs (jo_arr x)) as [|[v|] l IHl]; intros i IW; cbn [entries_from map] in IW; [destruct IW| |right; eapply IHl; exact IW].
    destruct IW as [<-|IW]; [left; reflexivity|right; eapply IHl; exact IW]. }
  destruct (choose_keys _ _ E) as [E1 E2]. exists ds. rewrite !map_map in *. split; [|split; [exact F|split]].
  - unfold ds_ints. rewrite map_map. rewrite E1, E2. split; [reflexivity|]. split; [reflexivity|apply ready_good; exact F].
  - assert (map (fun d => (match fst d with VInt n => n | _ => 0%Z end, snd d)) (map (fun d => (dk d, dv d)) ds) = map int_src ds) as <- by (rewrite map_map; reflexivity).
    rewrite E, map_map. cbn [fst snd]. rewrite <- (map_id (entries_from 0 (aabs (jo_arr x)))) at 1. apply map_ext. intros []. reflexivity.
  - intros d I. apply (in_map dk) in I. rewrite E1 in I. apply in_map_iff in I as [p [Q _]]. exists (fst p). symmetry. exact Q.
Qed.
Lemma used_entries : arr_used (jo_arr x) = zlen (entries_from 0 (aabs (jo_arr x))).
Proof. rewrite (arr_used_eq _ OK). rewrite <- (indexes_from_length (aabs (jo_arr x)) 0). rewrite <- entries_from_keys. unfold zlen. rewrite map_length. reflexivity. Qed.
Lemma object_result : result_of (repr_object R isidentifier isspace r level f maxprops x) a.
Proof.
  pose proof used_entries as U. assert (0 <= zlen (entries_from 0 (aabs (jo_arr x))))%Z as U0 by (unfold zlen; lia). assert (0 <= zlen (jo_props x))%Z as U1 by (unfold zlen; lia).
  unfold repr_object. unfold jo_len in MAX. destruct (jo_len x =? 0)%Z eqn:Z0.
  { unfold jo_len in Z0. apply empty_result.
    - apply refill_nil; [|exact LA]. destruct (entries_from 0 (aabs (jo_arr x))); [reflexivity|]. unfold zlen in *. cbn [length] in *. lia.
    - destruct (jo_props x); [reflexivity|]. unfold zlen in *. cbn [length] in *. lia. }
  destruct int_items as [ds1 [D1 [F1 [E1 K1]]]].
  assert (runs (if (0 <? arr_used (jo_arr x))%Z then
         let* _ := islice [tt] maxprops in
         let* items := from_result (fst (view_items (jo_arr x))) in
         let* shown := islice items maxprops in
         let* ps := each (fun p => entry r [TInt (fst p)] (snd p)) shown in
         ret (ps ++ if (maxprops <? arr_used (jo_arr x))%Z then [fill R] else [])
       else ret []) (map int_piece ds1)) as RA.
  { destruct (0 <? arr_used (jo_arr x))%Z eqn:U2.
    - eapply runs_bind; [apply islice_all; unfold zlen; cbn; lia|]. destruct (view_items_spec _ OK) as [a' [EV _]]. rewrite EV. cbn [fst].
      eapply runs_bind; [reflexivity|]. eapply runs_bind; [apply islice_all; lia|]. rewrite E1.
      eapply runs_bind; [apply (each_ready _ int_src int_piece); [|exact F1]|].
      + intros d [D _]. unfold entry, int_src. cbn [fst snd]. eapply runs_bind; [exact D|]. reflexivity.
      + destruct (maxprops <? arr_used (jo_arr x))%Z eqn:U3; [lia|]. rewrite app_nil_r. reflexivity.
    - assert (ds1 = []) as ->; [|reflexivity]. destruct ds1; [reflexivity|]. rewrite E1 in U. unfold zlen in U. cbn [map length] in U. lia. }
  assert ((if (0 <? arr_used (jo_arr x))%Z then (maxprops - arr_used (jo_arr x))%Z else maxprops) = (maxprops - arr_used (jo_arr x))%Z) as -> by (destruct (0 <? arr_used (jo_arr x))%Z eqn:U2; lia).
  assert (zlen (jo_props x) <= maxprops - arr_used (jo_arr x))%Z as MP by lia.
  destruct (match jo_props x with [] => false | _ => forallb (fun p => isidentifier (fst p)) (jo_props x) end) eqn:ID.
  - destruct (ident_props x ID) as [NE ID']. destruct (name_items_ x prop_P SN ID') as [ds2 [D2 [F2 [E2 K2]]]].
    destruct (names_nonempty _ _ D2 NE) as [d2 [ds2' Q2]].
    destruct (join_ok (map name_piece ds2)) as [kts [J2 S2]]. destruct (join_ok (map int_piece ds1)) as [ats [J1 S1]].
    destruct ds1 as [|d1 ds1'].
    + assert (aabs (jo_arr x) = []) as EN by (apply refill_nil; [exact E1|exact LA]).
      destruct (single_ok _ _ S2) as [tr ST]. eexists _, (ECall (chars f) (map (fun d => (arg_of (dk d), de d)) ds2)). split; [|split].
      * eapply runs_bind; [exact RA|]. eapply runs_bind; [apply (name_runs x); eassumption|]. eapply runs_bind; [unfold joined; rewrite J2; reflexivity|]. cbn [map]. reflexivity.
      * unfold names. rewrite strip_call, ST. destruct PF. apply parses_call; try assumption. apply name_args; assumption.
      * destruct D2 as [D2a [D2b D2c]]. exact (call_names H float_repr (chars f) mk MK CL a x A (good_props x SN) not_hole ds2 EN D2a D2b D2c).
    + assert (exists b, starts_with_space isspace kts = Ok b) as [b SB].
      { subst ds2. cbn [map] in J2. unfold name_piece in J2 at 1. eapply starts_ok. exact J2. }
      eexists _, (ECall (chars f) ((APos, dict_of (d1 :: ds1')) :: map (fun d => (arg_of (dk d), de d)) ds2)). split; [|split].
      * eapply runs_bind; [exact RA|]. eapply runs_bind; [apply (name_runs x); eassumption|]. eapply runs_bind; [unfold joined; rewrite J2; reflexivity|].
        change (map int_piece (d1 :: ds1')) with (int_piece d1 :: map int_piece ds1') at 1. cbn iota. eapply runs_bind; [unfold joined; rewrite J1; reflexivity|]. eapply runs_bind; [rewrite SB; reflexivity|]. reflexivity.
      * unfold names. eapply display_args; try eassumption; [| subst ds2; discriminate|reflexivity].
        rewrite strip_braces, S1. apply parses_dict. apply int_pairs; assumption.
      * exact (call_indexes H float_repr (chars f) mk MK CL a x A (good_props x SN) not_hole LA LE _ _ D1 D2).
  - destruct (str_items x prop_P) as [ds2 [D2 [F2 [E2 K2]]]].
    destruct (join_ok (map int_piece ds1 ++ map str_piece ds2)) as [ts [J S]].
    eexists _, (ECall (chars f) [(APos, dict_of (ds1 ++ ds2))]). split; [|split].
    + eapply runs_bind; [exact RA|]. eapply runs_bind with (x := map str_piece ds2).
      * pose proof (str_runs x ds2 (maxprops - arr_used (jo_arr x))%Z E2 K2 F2 MP) as SR. destruct (jo_props x); [|exact SR]. destruct ds2; [reflexivity|discriminate].
      * eapply runs_bind; [unfold joined; rewrite J; reflexivity|]. reflexivity.
    + unfold names. rewrite strip_call, strip_braces, S. destruct PF. rewrite map_app.
      assert (parses (TSym LBrace :: sepd (map strip (map int_piece ds1) ++ map strip (map str_piece ds2)) trail ++ [TSym RBrace]) (dict_of (ds1 ++ ds2))) as PD.
      { apply parses_dict. rewrite map_app. apply Forall2_app; [apply int_pairs; assumption|apply str_pairs; assumption]. }
      pose proof (parses_call keyword nfkc (chars f) [_] [_] false H0 H1 (Forall2_cons _ _ (parses_arg _ _ PD) (Forall2_nil _))) as PC. cbn [sepd] in PC. rewrite app_nil_r in PC. exact PC.
    + exact (call_entries H float_repr (chars f) mk MK CL a x A (good_props x SN) not_hole LA LE _ _ D1 D2).
Qed.
End Object.
(** ** JSArray *)
Section Array.
Variable a : nat.
Variable x : jsobj val.
Hypothesis A : nth_error H a = Some (OArray x).
Hypothesis SHOWN : shown_node H R isidentifier is_enum keyword nfkc float_repr P a (OArray x).
Let f := "JSArray"%string.
Lemma array_result : result_of (repr_array R isidentifier isspace r level x) a.
Proof.
  destruct SHOWN as [PX [OK [SN [MAX [NH SH]]]]].
  assert (plain_name (chars f)) as PF by (apply plain_of; cbn; auto).
  assert (class_of OArray) as CL by (right; reflexivity).
  assert (0 <= zlen (jo_props x))%Z as U1 by (unfold zlen; lia).
  unfold repr_array. destruct (jo_arr x) as [d|sp] eqn:ARR.
  2:{ assert ((zlen (aabs (jo_arr x)) <= 2 ^ 32 - 1)%Z) as LE. { rewrite ARR. cbn [aabs]. rewrite sabs_zlen by exact OK. destruct OK as [_ [_ [B _]]]. unfold sparse_len, MAX_LEN in *. lia. }
      rewrite <- ARR in OK, SH. pose proof (object_result f OArray (makes_array float_repr) CL PF a x A PX OK SN NH SH LE (r_maxjsarray R) MAX) as OR.
      destruct (jo_len x =? 0)%Z eqn:Z0; [|exact OR]. unfold repr_object in OR. rewrite Z0 in OR. exact OR. }
  destruct SH as [ML [EMP PH]]. assert (0 <= zlen (d_items d))%Z as U0 by (unfold zlen; lia).
  assert (aabs (jo_arr x) = d_items d) as AB by (rewrite ARR; reflexivity).
  destruct (jo_len x =? 0)%Z eqn:Z0.
  { assert (jo_len x = 0%Z) as Z1 by lia. rewrite <- ARR in OK. apply (empty_result f OArray (makes_array float_repr) CL PF a x A SN NH); [rewrite AB; exact (EMP Z1)|].
    unfold jo_len in Z1. rewrite (used_entries x OK) in Z1. destruct (jo_props x); [reflexivity|]. unfold zlen in Z1. cbn [length] in Z1. lia. }
  rewrite <- ARR in OK.
  pose proof (not_hole OArray CL x NH) as NHX. pose proof (prop_P OArray CL x PX) as PP. pose proof (good_props x SN) as GP.
  assert (forall n v, In (n, v) (jo_props x) -> v <> VHole) as NHP by (intros n v I; apply NHX; right; exists n; exact I).
  destruct (choose (map (fun v => (tt, v)) (elems (jo_arr x)))) as [ds1 [E1 F1]].
  { intros k v I. apply in_map_iff in I as [w [Q I]]. injection Q as _ <-. unfold elems in I. apply in_map_iff in I as [[y|] [Q I]]; subst w; [apply PX; left; exact I|]. apply PH. rewrite <- AB. exact I. }
  destruct (choose_keys _ _ E1) as [_ DV1]. rewrite map_map in DV1. cbn [snd] in DV1. rewrite map_id in DV1.
  assert (map dv ds1 = elems (jo_arr x) /\ Forall good ds1) as D1 by (split; [exact DV1|apply ready_good; exact F1]).
  assert (length ds1 = length (d_items d)) as L1 by (rewrite <- (map_length dv ds1), DV1; unfold elems; rewrite map_length, AB; reflexivity).
  assert (runs (if (0 <? zlen (d_items d))%Z then
             let* shown := islice (d_items d) (r_maxjsarray R) in
             let* ps := each (fun e => r (match e with Some v => v | None => VHole end)) shown in
             ret (ps ++ if (r_maxjsarray R <? zlen (d_items d))%Z then [fill R] else [])
           else ret []) (map dt ds1)) as RA.
  { destruct (0 <? zlen (d_items d))%Z eqn:U2.
    - eapply runs_bind; [apply islice_all; lia|]. eapply runs_bind with (x := map dt ds1).
      + assert (map (fun e : option val => match e with Some v => v | None => VHole end) (d_items d) = map dv ds1) as EM by (rewrite DV1; unfold elems; rewrite AB; reflexivity).
        clear -F1 EM. revert F1 EM. generalize ds1. induction (d_items d) as [|e l IHl]; intros [|d1 ds] F EM; try discriminate; [reflexivity|]. inversion F as [|? ? [D _] F']; subst. cbn [map] in EM. injection EM as EE EM.
        cbn [map each]. 
        eapply runs_bind; [rewrite EE; exact D|].
        eapply runs_bind; [exact (IHl ds F' EM)|]. reflexivity.
      + destruct (r_maxjsarray R <? zlen (d_items d))%Z eqn:U3; [lia|]. rewrite app_nil_r. reflexivity.
    - assert (ds1 = []) as ->; [|reflexivity]. destruct ds1; [reflexivity|]. unfold zlen in U2. cbn [length] in L1. lia. }
  assert (zlen (jo_props x) <= r_maxjsarray R - zlen (d_items d))%Z as MP by lia.
  destruct (join_ok (map dt ds1)) as [ats [J1 S1]].
  assert (parses (strip (brackets ats)) (EList (map de ds1))) as PL by (rewrite strip_brackets, S1; apply parses_list; apply plain_exprs; exact F1).
  destruct (match jo_props x with [] => false | _ => forallb (fun p => isidentifier (fst p)) (jo_props x) end) eqn:ID.
  - destruct (ident_props x ID) as [NE ID']. destruct (name_items_ x PP SN ID') as [ds2 [D2 [F2 [E2 K2]]]].
    destruct (names_nonempty _ _ D2 NE) as [d2 [ds2' Q2]].
    destruct (join_ok (map name_piece ds2)) as [kts [J2 S2]].
    destruct ds1 as [|d1 ds1'].
    + assert (aabs (jo_arr x) = []) as EN by (rewrite AB; destruct (d_items d); [reflexivity|discriminate]).
      destruct (single_ok _ _ S2) as [tr ST]. eexists _, (ECall (chars f) (map (fun d => (arg_of (dk d), de d)) ds2)). split; [|split].
      * eapply runs_bind; [exact RA|]. eapply runs_bind; [apply (name_runs x); eassumption|]. eapply runs_bind; [unfold joined; rewrite J2; reflexivity|]. cbn [map]. reflexivity.
      * unfold names. rewrite strip_call, ST. destruct PF. apply parses_call; try assumption. apply name_args; assumption.
      * destruct D2 as [D2a [D2b D2c]]. exact (call_names H float_repr (chars f) OArray (makes_array float_repr) CL a x A GP NHX ds2 EN D2a D2b D2c).
    + assert (exists b, starts_with_space isspace kts = Ok b) as [b SB].
      { subst ds2. cbn [map] in J2. unfold name_piece in J2 at 1. eapply starts_ok. exact J2. }
      eexists _, (ECall (chars f) ((APos, EList (map de (d1 :: ds1'))) :: map (fun d => (arg_of (dk d), de d)) ds2)). split; [|split].
      * eapply runs_bind; [exact RA|]. eapply runs_bind; [apply (name_runs x); eassumption|]. eapply runs_bind; [unfold joined; rewrite J2; reflexivity|].
        change (map dt (d1 :: ds1')) with (dt d1 :: map dt ds1') at 1. cbn iota. eapply runs_bind; [unfold joined; rewrite J1; reflexivity|]. eapply runs_bind; [rewrite SB; reflexivity|]. reflexivity.
      * unfold names. eapply display_args; try eassumption; [subst ds2; discriminate|reflexivity].
      * exact (call_list H float_repr a x A GP NHP (d1 :: ds1') D1 ds2 D2).
  - destruct (str_items x PP) as [ds2 [D2 [F2 [E2 K2]]]].
    destruct (join_ok (map str_piece ds2)) as [ts [J S]].
    assert (runs (match jo_props x with [] => ret [] | _ => property_pieces R (fun p => entry r [TStr (fst p)] (snd p)) (jo_props x) (r_maxjsarray R - zlen (d_items d)) end) (map str_piece ds2)) as RP.
    { pose proof (str_runs x ds2 _ E2 K2 F2 MP) as SR. destruct (jo_props x); [|exact SR]. destruct ds2; [reflexivity|discriminate]. }
    assert (forall tr, parses (TSym LBrace :: sepd (map strip (map str_piece ds2)) tr ++ [TSym RBrace]) (dict_of ds2)) as PD by (intros tr; apply parses_dict; apply str_pairs; assumption).
    destruct ds1 as [|d1 ds1'].
    + assert (aabs (jo_arr x) = []) as EN by (rewrite AB; destruct (d_items d); [reflexivity|discriminate]).
      destruct (single_ok _ _ S) as [tr ST]. eexists _, (ECall (chars f) [(APos, dict_of ([] ++ ds2))]). split; [|split].
      * eapply runs_bind; [exact RA|]. eapply runs_bind; [exact RP|]. eapply runs_bind; [unfold joined; rewrite J; reflexivity|]. cbn [map]. reflexivity.
      * unfold names. rewrite strip_call, strip_braces, ST. destruct PF as [P1 P2].
        pose proof (parses_call keyword nfkc (chars f) [_] [_] false P1 P2 (Forall2_cons _ _ (parses_arg _ _ (PD tr)) (Forall2_nil _))) as PC. cbn [sepd] in PC. rewrite app_nil_r in PC. exact PC.
      * apply (call_entries H float_repr (chars f) OArray (makes_array float_repr) CL a x A GP NHX); [rewrite EN; intros ? C; congruence|rewrite EN; unfold zlen; cbn; lia| |exact D2].
        unfold ds_ints. rewrite EN. repeat constructor.
    + destruct ds2 as [|d2 ds2'].
      * eexists _, (ECall (chars f) [(APos, EList (map de (d1 :: ds1')))]). split; [|split].
        -- eapply runs_bind; [exact RA|]. eapply runs_bind; [exact RP|]. eapply runs_bind; [unfold joined; rewrite J; reflexivity|].
           change (map dt (d1 :: ds1')) with (dt d1 :: map dt ds1') at 1. cbn iota. eapply runs_bind; [unfold joined; rewrite J1; reflexivity|]. reflexivity.
        -- unfold names. rewrite strip_call. destruct PF as [P1 P2].
           pose proof (parses_call keyword nfkc (chars f) [_] [_] false P1 P2 (Forall2_cons _ _ (parses_arg _ _ PL) (Forall2_nil _))) as PC. cbn [sepd] in PC. rewrite app_nil_r in PC. exact PC.
        -- apply (call_list H float_repr a x A GP NHP (d1 :: ds1') D1 []). unfold ds_names. destruct (jo_props x); [repeat constructor|discriminate].
      * eexists _, (ECall (chars f) [(APos, EList (map de (d1 :: ds1'))); (AStar, dict_of (d2 :: ds2'))]). split; [|split].
        -- eapply runs_bind; [exact RA|]. eapply runs_bind; [exact RP|]. eapply runs_bind; [unfold joined; rewrite J; reflexivity|].
           change (map dt (d1 :: ds1')) with (dt d1 :: map dt ds1') at 1. cbn iota. eapply runs_bind; [unfold joined; rewrite J1; reflexivity|]. reflexivity.
        -- unfold names. rewrite strip_call, !strip_app, strip_braces, S. destruct PF as [P1 P2].
           pose proof (parses_call keyword nfkc (chars f) [_; _] [_; _] false P1 P2 (Forall2_cons _ _ (parses_arg _ _ PL) (Forall2_cons _ _ (ia_star keyword nfkc _ _ (PD trail)) (Forall2_nil _)))) as PC. cbn [sepd] in PC. rewrite app_nil_r in PC. exact PC.
        -- exact (call_list_star H float_repr a x A GP NHP (d1 :: ds1') D1 _ D2).
Qed.
End Array.
Lemma call_parses f (pieces : list (list tok)) args tr ts : plain_name f -> strip ts = sepd pieces tr -> Forall2 is_arg pieces args -> parses (strip (call [TName f] ts)) (ECall f args).
Proof. intros [P1 P2] E F. rewrite strip_call, E. apply parses_call; assumption. Qed.
Lemma call_one f (ts : list tok) e : plain_name f -> parses (strip ts) e -> parses (strip (call [TName f] ts)) (ECall f [(APos, e)]).
Proof. intros PF PE. apply (call_parses f [strip ts] _ false); [exact PF|cbn; rewrite app_nil_r; reflexivity|]. constructor; [apply parses_arg; exact PE|constructor]. Qed.
Lemma call_none f : plain_name f -> parses (strip (call [TName f] [])) (ECall f []).
Proof. intros PF. apply (call_parses f [] _ false); [exact PF|reflexivity|constructor]. Qed.
(** ** JSMap *)
Lemma choose_pairs (kvs : list (val * val)) : (forall k v, In (k, v) kvs -> P k /\ P v) ->
  exists ds : list (item unit * item unit), map (fun d => (dv (fst d), dv (snd d))) ds = kvs /\ Forall (fun d => ready (fst d) /\ ready (snd d)) ds.
Proof.
  induction kvs as [|[k v] kvs IHl]; intros F; [exists []; split; constructor|].
  destruct IHl as [ds [E FD]]; [intros k' v' I; apply (F k' v'); right; exact I|]. destruct (F k v (or_introl eq_refl)) as [PK PV].
  destruct (IH k PK) as [kt [ke [K1 [K2 K3]]]]. destruct (IH v PV) as [vt [ve [V1 [V2 V3]]]].
  exists ((mkItem unit tt k kt ke, mkItem unit tt v vt ve) :: ds). split; [cbn; f_equal; exact E|]. constructor; [|exact FD]. split; (split; [assumption|split; assumption]).
Qed.
Lemma distinct_hashes ks : forall seen, (forall v, In v ks -> shown_leaf whole v \/ exists o x, v = VRef o /\ nth_error H o = Some x /\ js_obj x = true) -> distinct_keys H seen ks = true ->
  exists hs, Forall2 hashed ks hs /\ NoDup hs /\ (forall h, In h hs -> ~ In (Some h) seen) /\ (forall k, In k ks -> forall o, k <> VRef o).
Proof.
  induction ks as [|k ks IHl]; intros seen L D; [exists []; repeat split; try constructor; intros ? []|].
  cbn [distinct_keys] in D. assert (forall o, k <> VRef o) as NR.
  { intros o ->. destruct (L _ (or_introl eq_refl)) as [[]|[o' [x [Q [E J]]]]]. injection Q as ->. unfold dict_key in D. rewrite hash_S, E in D. destruct x; discriminate. }
  assert (shown_leaf whole k) as SL. { destruct (L _ (or_introl eq_refl)) as [SL|[o' [x [-> _]]]]; [exact SL|exfalso; eapply NR; reflexivity]. }
  assert (exists h, hashed k h /\ dict_key H k = Some (Some h)) as [h [HK DK]].
  { unfold hashed, dict_key. destruct k as [| | |b|z|b|n|o]; try (eexists; split; [intros G; reflexivity|reflexivity]).
    - cbn [hash hnumber]. destruct (canon z 0). eexists. split; [intros G; reflexivity|reflexivity].
    - destruct SL as [m [e E]]. rewrite hash_S, E. setoid_rewrite hash_S. rewrite E. cbn [hnumber]. destruct (canon m e). eexists. split; [intros G; reflexivity|reflexivity].
    - exfalso. eapply NR. reflexivity. }
  rewrite DK in D. apply andb_prop in D as [D1 D2]. destruct (IHl (Some h :: seen)) as [hs [F [ND [DJ NRS]]]]; [intros v I; apply L; right; exact I|exact D2|].
  exists (h :: hs). split; [constructor; assumption|]. split; [|split].
  - constructor; [|exact ND]. intros I. apply (DJ h I). left. reflexivity.
  - intros h' [<-|I] J; [|apply (DJ h' I); right; exact J]. apply negb_true_iff in D1. assert (existsb (same_key (Some h)) seen = true); [|congruence]. apply existsb_exists. exists (Some h). split; [exact J|]. cbn [same_key]. apply hkey_eqb_spec. reflexivity.
  - intros k' [<-|I]; [exact NR|apply NRS; exact I].
Qed.
Hypothesis PS : forall v, P v -> shown_leaf whole v \/ exists o x, v = VRef o /\ nth_error H o = Some x /\ js_obj x = true.
Lemma map_result a m : nth_error H a = Some (OMap m) -> shown_node H R isidentifier is_enum keyword nfkc float_repr P a (OMap m) -> result_of (repr_map H R r level m) a.
Proof.
  intros A [PX [MADE MAX]]. assert (plain_name (chars "JSMap")) as PF by (apply plain_of; cbn; auto). unfold repr_map. unfold jm_len in *.
  destruct (Z.of_nat (length m) =? 0)%Z eqn:Z0.
  { assert (m = []) as E0 by (destruct m; [reflexivity|cbn [length] in Z0; lia]). eexists _, (ECall (chars "JSMap") []). split; [reflexivity|]. split; [apply call_none; exact PF|]. exact (call_map_empty H float_repr a m A E0). }
  destruct (choose_pairs (map snd m)) as [ds [E F]].
  { intros k v I. split; apply PX; [exists v; right; exact I|exists k; left; exact I]. }
  assert (Forall (fun d => good (fst d) /\ good (snd d)) ds) as FG. { eapply Forall_impl; [|exact F]. intros d [[_ [_ G1]] [_ [_ G2]]]. auto. }
  set (dict := is_dict_equivalent H R m). set (piece := fun d : item unit * item unit => if dict then dt (fst d) ++ [TSym Colon; TSpace] ++ dt (snd d) else [TSym LPar] ++ dt (fst d) ++ sepj ++ dt (snd d) ++ [TSym RPar]).
  assert (runs (each (fun p : val * val => let* k := r (fst p) in let* v := r (snd p) in
        ret (if dict then k ++ [TSym Colon; TSpace] ++ v else [TSym LPar] ++ k ++ sepj ++ v ++ [TSym RPar])) (map snd m)) (map piece ds)) as RE.
  { rewrite <- E. clear -F. induction F as [|d ds [[D1 _] [D2 _]] F IHl]; [reflexivity|]. cbn [map each]. eapply runs_bind; [eapply runs_bind; [exact D1|]; eapply runs_bind; [exact D2|]; reflexivity|]. eapply runs_bind; [exact IHl|]. reflexivity. }
  destruct (join_ok (map piece ds)) as [ts [J S]].
  assert (runs (joined R level (map piece ds ++ (if (r_maxdict R <? Z.of_nat (length m))%Z then [fill R] else []))) ts) as RJ.
  { destruct (r_maxdict R <? Z.of_nat (length m))%Z eqn:Q; [lia|]. rewrite app_nil_r. unfold joined. rewrite J. reflexivity. }
  eexists _, (ECall (chars "JSMap") [(APos, if dict then EDict (map (fun d => (de (fst d), de (snd d))) ds) else EList (map (fun d => ETuple [de (fst d); de (snd d)]) ds))]). split; [|split].
  - eapply runs_bind; [apply islice_all; unfold zlen; rewrite map_length; exact MAX|]. eapply runs_bind; [exact RE|]. eapply runs_bind; [exact RJ|]. reflexivity.
  - apply call_one; [exact PF|]. fold dict. destruct dict eqn:D.
    + rewrite strip_braces, S. apply parses_dict. clear -F D. subst piece. cbv beta iota. induction F as [|d ds [[_ [D1 _]] [_ [D2 _]]] F IHl]; [constructor|]. cbn [map]. constructor; [|exact IHl].
      exists (strip (dt (fst d))), (strip (dt (snd d))). rewrite !strip_app. auto.
    + rewrite strip_brackets, S. apply parses_list. clear -F D. subst piece. cbv beta iota. induction F as [|d ds [[_ [D1 _]] [_ [D2 _]]] F IHl]; [constructor|]. cbn [map]. constructor; [|exact IHl].
      rewrite !strip_app. exact (parses_pair keyword nfkc _ _ _ _ D1 D2).
  - destruct dict eqn:D.
    + subst dict. unfold is_dict_equivalent in D. apply andb_prop in D as [_ D].
      destruct (distinct_hashes (jm_iter m) []) as [hs [FH [NDH [_ NR]]]]; [|exact D|].
      * intros v I. apply PS. apply PX. unfold jm_iter in I. apply in_map_iff in I as [[sv [k w]] [<- I]]. exists w. right. apply in_map_iff. exists (sv, (k, w)). auto.
      * unfold jm_iter in *. rewrite map_map in *. eapply call_map_dict; try eassumption; rewrite map_map; eassumption.
    + eapply call_pairs; eassumption.
Qed.
(** ** JSSet *)
Lemma set_result a m : nth_error H a = Some (OSet m) -> shown_node H R isidentifier is_enum keyword nfkc float_repr P a (OSet m) -> result_of (repr_set R r level m) a.
Proof.
  intros A [PX [MADE MAX]]. assert (plain_name (chars "JSSet")) as PF by (apply plain_of; cbn; auto 6). unfold repr_set.
  destruct (list_eq_nil m) as [E0|NE].
  { rewrite E0. eexists _, (ECall (chars "JSSet") []). split; [reflexivity|]. split; [apply call_none; exact PF|]. exact (call_set_empty H float_repr a m A E0). }
  destruct (choose (map (fun v => (tt, v)) (map snd m))) as [ds [E F]].
  { intros k v I. apply in_map_iff in I as [w [Q I]]. injection Q as _ <-. apply PX. exact I. }
  destruct (choose_keys _ _ E) as [_ DV]. rewrite map_map in DV. cbn [snd] in DV. rewrite map_id in DV.
  destruct (join_ok (map dt ds)) as [ts [J S]].
  eexists _, (ECall (chars "JSSet") [(APos, EList (map de ds))]). split; [|split].
  - assert (forall X Y : M (list tok), match m with [] => X | _ :: _ => Y end = Y) as -> by (intros; destruct m; [congruence|reflexivity]).
    unfold repr_iterable. assert (zlen (js_iter m) <= r_maxset R)%Z as L by (unfold js_iter, js_len, zlen in *; rewrite map_length; exact MAX).
    eapply runs_bind; [apply islice_all; exact L|]. eapply runs_bind; [unfold js_iter; rewrite <- DV; apply (each_ready _ dv dt); [|exact F]; intros d [D _]; exact D|].
    eapply runs_bind with (x := ts).
    + destruct (r_maxset R <? zlen (js_iter m))%Z eqn:Q; [lia|]. rewrite app_nil_r. unfold joined. rewrite J. reflexivity.
    + cbn [andb app]. reflexivity.
  - pose proof (call_one (chars "JSSet") (brackets ts) (EList (map de ds)) PF) as C.
    assert (call [TName (chars "JSSet")] (brackets ts) = (names "JSSet" ++ [TSym LPar; TSym LBracket]) ++ ts ++ [TSym RBracket; TSym RPar]) as Q by (unfold call, brackets, names; cbn [app]; rewrite <- app_assoc; reflexivity).
    rewrite Q in C. apply C. rewrite strip_brackets, S. apply parses_list. apply plain_exprs. exact F.
  - eapply call_set; try eassumption. apply ready_good. exact F.
Qed.
(** ** JSError *)
Lemma error_result a n m st c : nth_error H a = Some (OError n m st c) -> shown_node H R isidentifier is_enum keyword nfkc float_repr P a (OError n m st c) -> result_of (repr_error R is_enum r level a n m st c) a.
Proof.
  intros A [PX [NM [EN [PN PT]]]]. assert (plain_name (chars "JSError")) as PF by (apply plain_of; cbn; auto 6). destruct m as [m|]; [|congruence].
  destruct (choose (error_args n m st c)) as [ds [E F]].
  { intros k v I. unfold error_args in I. apply in_app_or in I as [[I|[]]|I]; [injection I as _ <-; apply PT; auto|]. apply in_app_or in I as [I|I].
    { destruct (listN_eqb n (chars "Error")); [destruct I|]. destruct I as [I|[]]. injection I as _ <-. exact PN. }
    apply in_app_or in I as [I|I].
    { destruct st as [st|]; [|destruct I]. destruct I as [I|[]]. injection I as _ <-. apply PT. auto. }
    apply PX. cbn [holds]. destruct c; try (destruct I as [I|[]]; injection I as _ <-; reflexivity). destruct I. }
  destruct (choose_keys _ _ E) as [DK DV].
  set (piece := fun d : item (option (list N)) => match dk d with None => dt d | Some k => [TName k; TSym Equals] ++ dt d end).
  destruct (join_ok (map piece ds)) as [ts [J S]].
  exists (call (names "JSError") ts), (ECall (chars "JSError") (map (fun d => (arg_of (dk d), de d)) ds)). split; [|split].
  - unfold repr_error. unfold error_args in E. destruct ds as [|d0 ds0]; [discriminate|]. cbn [map app] in E. injection E as K0 V0 E. inversion F as [|? ? [D0 _] F0]; subst.
    eapply runs_bind; [cbn [opt_str]; rewrite <- V0; exact D0|].
    assert (exists ds1 ds2, ds0 = ds1 ++ ds2 /\ map (fun d => (dk d, dv d)) ds1 = (if listN_eqb n (chars "Error") then [] else [(Some (chars "name"), VStr n)]) /\
       map (fun d => (dk d, dv d)) ds2 = (match st with None => [] | Some s => [(Some (chars "stack"), VStr s)] end) ++ (match c with VNone => [] | _ => [(Some (chars "cause"), c)] end)) as [ds1 [ds2 [-> [E1 E2]]]].
    { apply map_eq_app in E as [l1 [l2 [-> [Q1 Q2]]]]. exists l1, l2. auto. }
    apply map_eq_app in E2 as [ds3 [ds4 [-> [E3 E4]]]]. apply Forall_app in F0 as [F1 F2]. apply Forall_app in F2 as [F3 F4].
    eapply runs_bind with (x := map piece ds1).
    { destruct (listN_eqb n (chars "Error")); [destruct ds1; [reflexivity|discriminate]|]. destruct ds1 as [|d1 [|]]; try discriminate. injection E1 as K1 V1. inversion F1 as [|? ? [D1 _] _]; subst.
      unfold repr_name. rewrite EN. eapply runs_bind; [rewrite <- V1; exact D1|]. unfold piece. cbn [map]. rewrite K1. reflexivity. }
    eapply runs_bind with (x := map piece ds3).
    { destruct st as [st|]; [|destruct ds3; [reflexivity|discriminate]]. destruct ds3 as [|d1 [|]]; try discriminate. injection E3 as K1 V1. inversion F3 as [|? ? [D1 _] _]; subst.
      eapply runs_bind; [rewrite <- V1; exact D1|]. unfold piece. cbn [map]. rewrite K1. reflexivity. }
    eapply runs_bind with (x := map piece ds4).
    { destruct (val_none c) as [-> |NC]; [destruct ds4; [reflexivity|discriminate]|].
      assert (match c with VNone => [] | _ => [(Some (chars "cause"), c)] end = [(Some (chars "cause"), c)]) as EC by (destruct c; try reflexivity; congruence). rewrite EC in E4.
      destruct ds4 as [|d1 [|]]; try discriminate. injection E4 as K1 V1. inversion F4 as [|? ? [D1 _] _]; subst.
      assert (forall X Y : M (list (list tok)), match dv d1 with VNone => X | _ => Y end = Y) as -> by (intros; destruct (dv d1); try reflexivity; congruence).
      eapply runs_bind; [exact D1|]. unfold piece. cbn [map]. rewrite K1. reflexivity. }
    eapply runs_bind with (x := ts); [|reflexivity]. unfold joined. rewrite <- !map_app. unfold runs, from_result. assert ([dt d0] ++ map piece (ds1 ++ ds3 ++ ds4) = map piece (d0 :: ds1 ++ ds3 ++ ds4)) as -> by (cbn [map app]; unfold piece at 2; rewrite K0; reflexivity). rewrite J. reflexivity.
  - apply (call_parses (chars "JSError") (map strip (map piece ds)) _ trail ts PF S).
    assert (forall d, In d ds -> dk d = None \/ exists k, dk d = Some k /\ plain_name k) as PK.
    { intros d I. apply (in_map dk) in I. rewrite DK in I. unfold error_args in I. rewrite !map_app in I. apply in_app_or in I as [[I|[]]|I]; [left; symmetry; exact I|]. right. apply in_app_or in I as [I|I].
      { destruct (listN_eqb n (chars "Error")); [destruct I|]. destruct I as [I|[]]. exists (chars "name"). split; [symmetry; exact I|apply plain_of; cbn; auto 9]. }
      apply in_app_or in I as [I|I].
      { destruct st as [st|]; [|destruct I]. destruct I as [I|[]]. exists (chars "stack"). split; [symmetry; exact I|apply plain_of; cbn; auto 9]. }
      exists (chars "cause"). split; [|apply plain_of; cbn; auto 9]. destruct c; try (destruct I as [I|[]]; symmetry; exact I). destruct I. }
    clear -F PK. induction F as [|d ds [_ [D _]] F IHl]; [constructor|]. cbn [map]. constructor; [|apply IHl; intros d' I; apply PK; right; exact I].
    unfold piece. destruct (PK d (or_introl eq_refl)) as [K|[k [K [P1 P2]]]]; rewrite K; cbn [arg_of]; [apply parses_arg; exact D|]. apply ia_key; assumption.
  - eapply call_error; try eassumption. apply ready_good. exact F.
Qed.
End Method.

(** ** All levels *)
Notation repr1 := (repr1 H R t isidentifier isspace whole is_enum).
Notation shown := (shown H R isidentifier whole is_enum keyword nfkc float_repr).
Lemma shown_cases level above v : shown level above v -> shown_leaf whole v \/ exists o x, v = VRef o /\ nth_error H o = Some x /\ js_obj x = true.
Proof.
  destruct level; [intros []|]. intros S. destruct v; try (left; exact S). right. destruct S as [_ [x [E [_ S]]]]. exists oid, x. split; [reflexivity|]. split; [exact E|]. destruct x; try reflexivity; destruct S.
Qed.
Lemma repr_evaluates level : forall above s v, (forall o, ModelEq.kmem (o, t) s = true -> In o above) -> shown level above v ->
  exists ts e, repr1 level v s = (Ok ts, s) /\ parses (strip ts) e /\ evaluates v e.
Proof.
  induction level as [|level IHL]; intros above s v KS SH; [destruct SH|].
  destruct (match v with VRef o => Some o | _ => None end) as [o|] eqn:V.
  2:{ assert (shown_leaf whole v) as SL by (destruct v; try exact SH; discriminate). assert (forall o, v <> VRef o) as NR by (intros o ->; discriminate).
      exists (leaf_repr whole v), (leaf_expr v). split; [destruct v; try reflexivity; discriminate|]. split; [apply leaf_parses; exact SL|apply evaluates_leaf; exact NR]. }
  destruct v; try discriminate. injection V as ->. destruct SH as [NI [x [E SH]]]. cbn [ModelReprText.repr1].
  assert (ModelEq.kmem (o, t) s = false) as KM by (destruct (ModelEq.kmem (o, t) s) eqn:K; [exfalso; apply NI, KS; exact K|reflexivity]). rewrite KM.
  set (s' := ModelEq.kadd (o, t) s).
  assert (forall v, shown level (o :: above) v -> exists ts e, runs s' (repr1 level v) ts /\ parses (strip ts) e /\ evaluates v e) as IH.
  { intros v. apply IHL. intros o' K. apply kmem_in in K. unfold s', ModelEq.kadd in K. rewrite KM in K. destruct K as [K|K]; [injection K as ->; left; reflexivity|]. right. apply KS. apply kmem_in. exact K. }
  assert (result_of s' (repr_object_at H R isidentifier isspace is_enum (repr1 level) (S level) o) o) as [ts [e [E1 [E2 E3]]]].
  { unfold repr_object_at. rewrite E. destruct x; try (exfalso; exact (proj2 SH)).
    - apply map_result with (P := shown level (o :: above)); try assumption. intros v. apply shown_cases.
    - apply set_result with (P := shown level (o :: above)); try assumption.
    - destruct SH as [PX [OK [SN [MAX [NH [LA LE]]]]]]. eapply object_result with (P := shown level (o :: above)) (mk := OObject); try eassumption; [apply makes_object|left; reflexivity|apply plain_of; cbn; auto].
    - apply array_result with (P := shown level (o :: above)); try assumption.
    - apply error_result with (P := shown level (o :: above)); try assumption. }
  exists ts, e. split; [|auto]. fold s'. rewrite E1. unfold s'. rewrite kdel_kadd by exact KM. reflexivity.
Qed.
End Text.
