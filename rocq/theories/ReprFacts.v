(** Facts about ModelReprText: the set of running keys, and parsing of joined pieces. *)
From Coq Require Import Ascii String List NArith ZArith Bool Arith Lia.
From Verif Require Import Base Dict SpecNumber ModelTags ModelArray ModelValue ModelObject ModelMap ModelHeap ModelEncode ModelEq ModelReprText SpecRepr.
Import ListNotations.
Open Scope list_scope.
Open Scope nat_scope.

(** * Running keys *)
Definition keeps {A} (m : M A) : Prop := forall s, snd (m s) = s.
Lemma keeps_ret {A} (x : A) : keeps (ret x). Proof. intros s. reflexivity. Qed.
Lemma keeps_raise {A} e : keeps (@raise A e). Proof. intros s. reflexivity. Qed.
Lemma keeps_result {A} (r : result A) : keeps (from_result r). Proof. intros s. reflexivity. Qed.
Lemma keeps_bind {A B} (m : M A) (f : A -> M B) : keeps m -> (forall x, keeps (f x)) -> keeps (andThen m f).
Proof. intros K F s. unfold andThen. specialize (K s). destruct (m s) as [[x|e] s']; cbn [snd] in *; subst; [apply F|reflexivity]. Qed.
Lemma keeps_each {A B} (f : A -> M B) l : (forall x, keeps (f x)) -> keeps (each f l).
Proof. intros F. induction l as [|x l IH]; cbn [each]; [apply keeps_ret|]. apply keeps_bind; [apply F|]. intros y. apply keeps_bind; [exact IH|]. intros r. apply keeps_ret. Qed.
Lemma keeps_islice {A} (l : list A) n : keeps (islice l n).
Proof. unfold islice. destruct (n <? 0)%Z; [apply keeps_raise|apply keeps_ret]. Qed.
Ltac keep :=
  repeat first
    [ apply keeps_ret | apply keeps_raise | apply keeps_result | apply keeps_islice
    | apply keeps_each; intros | apply keeps_bind; [|intros]
    | match goal with |- keeps (if ?b then _ else _) => destruct b | |- keeps (match ?b with _ => _ end) => destruct b end
    | assumption ].

Section Running.
Variable H : heap.
Variable R : rsettings.
Variable t : nat.
Variable isidentifier : list N -> bool.
Variable isspace : N -> bool.
Variable whole : val -> bool.
Variable is_enum : nat -> bool.
Notation method := (repr_object_at H R isidentifier isspace is_enum).
Notation repr1 := (repr1 H R t isidentifier isspace whole is_enum).
Lemma keeps_props piece props n : (forall p, keeps (piece p)) -> keeps (property_pieces R piece props n).
Proof. intros K. unfold property_pieces. keep; apply K. Qed.
Lemma keeps_object r level name n o : (forall v, keeps (r v)) -> keeps (repr_object R isidentifier isspace r level name n o).
Proof.
  intros K. unfold repr_object, joined. keep; try (apply keeps_props; intros; unfold kwarg, entry; keep; apply K);
  unfold entry; keep; apply K.
Qed.
Lemma method_keeps r level o : (forall v, keeps (r v)) -> keeps (method r level o).
Proof.
  intros K. unfold repr_object_at. destruct (nth_error H o) as [[]|]; try apply keeps_ret.
  - unfold repr_map, joined. keep; apply K.
  - unfold repr_set, repr_iterable, joined. keep; apply K.
  - apply keeps_object, K.
  - unfold repr_array, joined. destruct (_ =? 0)%Z; [apply keeps_ret|]. destruct (jo_arr o0) eqn:E; [|apply keeps_object, K].
    keep; try (apply keeps_props; intros; unfold kwarg, entry; keep; apply K); apply K.
  - unfold repr_error, joined, repr_name. keep; apply K.
  - unfold repr_iterable, joined. destruct tuple; keep; apply K.
Qed.
Lemma kmem_in k s : kmem k s = true <-> In k s.
Proof.
  unfold kmem. rewrite existsb_exists. split.
  - intros [x [I E]]. unfold key_eqb in E. apply andb_prop in E as [E1 E2]. apply Nat.eqb_eq in E1, E2. destruct k, x; cbn in *; subst; exact I.
  - intros I. exists k. split; [exact I|]. unfold key_eqb. rewrite !Nat.eqb_refl. reflexivity.
Qed.
Lemma kdel_kadd k s : kmem k s = false -> kdel k (kadd k s) = s.
Proof.
  intros N. unfold kadd. rewrite N. unfold kdel. cbn [filter]. assert (key_eqb k k = true) as -> by (unfold key_eqb; rewrite !Nat.eqb_refl; reflexivity).
  cbn [negb]. unfold kmem in N. induction s as [|x s IH]; cbn [filter existsb] in *; [reflexivity|].
  apply orb_false_elim in N as [N1 N2]. rewrite N1. cbn [negb]. rewrite IH by exact N2. reflexivity.
Qed.
Lemma repr1_keeps level : forall v, keeps (repr1 level v).
Proof.
  induction level as [|l IH]; intros v; cbn [ModelReprText.repr1]; [apply keeps_ret|]. destruct v as [| | | | | | |o]; try apply keeps_ret.
  intros s. destruct (kmem (o, t) s) eqn:E; [reflexivity|].
  pose proof (method_keeps (repr1 l) (S l) o IH (kadd (o, t) s)) as K. destruct (method _ _ _ _) as [x s'] eqn:EM. cbn [snd] in *. subst s'. apply kdel_kadd, E.
Qed.
End Running.

(** * Parsing *)
Section Parse.
Variable keyword : list N -> bool.
Variable nfkc : list N -> list N.
Notation expression := (expression keyword nfkc).
Definition pairp (fuel : nat) (ts : list tok) : option ((expr * expr) * list tok) :=
  match expression fuel ts with
  | Some (k, TSym Colon :: r) => match expression fuel r with Some (v, r) => Some ((k, v), r) | None => None end
  | _ => None
  end.
Definition argp (fuel : nat) (ts : list tok) : option ((akind * expr) * list tok) :=
  match ts with
  | TName k :: TSym Equals :: r =>
      if keyword k then None else match expression fuel r with Some (e, r) => Some ((AKey (nfkc k), e), r) | None => None end
  | TSym StarStar :: r => match expression fuel r with Some (e, r) => Some ((AStar, e), r) | None => None end
  | _ => match expression fuel ts with Some (e, r) => Some ((APos, e), r) | None => None end
  end.
Lemma expression_S fuel ts : expression (S fuel) ts =
  match ts with
  | TInt z :: r => Some (ELit (VInt z), r)
  | TFloat b :: r => Some (ELit (VFloat b), r)
  | TStr s :: r => Some (ELit (VStr s), r)
  | TName f :: TSym LPar :: r =>
      if keyword f then None else match items (argp fuel) RPar fuel r with Some (l, r) => Some (ECall (nfkc f) l, r) | None => None end
  | TName n :: r => Some (EName n, r)
  | TSym LBracket :: r => match items (expression fuel) RBracket fuel r with Some (l, r) => Some (EList l, r) | None => None end
  | TSym LBrace :: r => match items (pairp fuel) RBrace fuel r with Some (l, r) => Some (EDict l, r) | None => None end
  | TSym LPar :: TSym RPar :: r => Some (ETuple [], r)
  | TSym LPar :: r =>
      match expression fuel r with
      | Some (a, TSym Comma :: r) => match items (expression fuel) RPar fuel r with Some (l, r) => Some (ETuple (a :: l), r) | None => None end
      | Some (a, TSym RPar :: r) => Some (a, r)
      | _ => None
      end
  | _ => None
  end.
Proof. reflexivity. Qed.

Definition is_close (c : sym) : bool := match c with RPar | RBracket | RBrace => true | _ => false end.
(** What follows an expression *)
Definition delim (rest : list tok) : Prop :=
  match rest with [] => True | TSym c :: _ => is_close c = true \/ c = Comma \/ c = Colon | _ => False end.
(** How a piece starts *)
Definition opens (ts : list tok) : Prop := match ts with [] => False | TSym c :: _ => is_close c = false | _ => True end.
Lemma opens_app ts rest : opens ts -> opens (ts ++ rest).
Proof. destruct ts; [intros []|auto]. Qed.

Fixpoint sepd (pieces : list (list tok)) (trail : bool) : list tok :=
  match pieces with
  | [] => []
  | [p] => p ++ (if trail then [TSym Comma] else [])
  | p :: r => p ++ TSym Comma :: sepd r trail
  end.
Lemma sepd_cons p q r trail : sepd (p :: q :: r) trail = p ++ TSym Comma :: sepd (q :: r) trail.
Proof. reflexivity. Qed.
Lemma sepd_long pieces trail p : In p pieces -> List.length p <= List.length (sepd pieces trail).
Proof.
  induction pieces as [|q r IH]; intros I; [destruct I|]. destruct r as [|q2 r].
  - destruct I as [->|[]]. cbn [sepd]. rewrite app_length. lia.
  - rewrite sepd_cons, app_length. cbn [List.length]. destruct I as [->|I]; [lia|]. specialize (IH I). lia.
Qed.
Lemma sepd_count pieces trail : Forall opens pieces -> List.length pieces <= List.length (sepd pieces trail).
Proof.
  induction pieces as [|q r IH]; intros F; [cbn; lia|]. inversion F as [|? ? O F']; subst.
  assert (1 <= List.length q) by (destruct q; [destruct O|cbn; lia]). destruct r as [|q2 r].
  - cbn [sepd List.length]. rewrite app_length. lia.
  - rewrite sepd_cons, app_length. specialize (IH F'). cbn [List.length] in *. lia.
Qed.
Definition iparse {A} (item : list tok -> option (A * list tok)) (ts : list tok) (x : A) : Prop :=
  opens ts /\ forall rest, delim rest -> item (ts ++ rest) = Some (x, rest).
Lemma closes_open close ts : is_close close = true -> opens ts -> closes close ts = None.
Proof. intros C O. destruct ts as [|[] ts]; try reflexivity. cbn in *. destruct c, close; try discriminate; reflexivity. Qed.
Lemma closes_close close rest : closes close (TSym close :: rest) = Some rest.
Proof. cbn. destruct close; reflexivity. Qed.
Lemma items_S {A} (item : list tok -> option (A * list tok)) close fuel ts : items item close (S fuel) ts =
  match closes close ts with
  | Some r => Some ([], r)
  | None =>
      match item ts with
      | Some (x, TSym Comma :: r) => match items item close fuel r with Some (l, r) => Some (x :: l, r) | None => None end
      | Some (x, r) => match closes close r with Some r => Some ([x], r) | None => None end
      | None => None
      end
  end.
Proof. reflexivity. Qed.
Lemma items_sepd {A} (item : list tok -> option (A * list tok)) close pieces xs trail rest :
  is_close close = true -> Forall2 (iparse item) pieces xs ->
  forall fuel, List.length pieces < fuel -> items item close fuel (sepd pieces trail ++ TSym close :: rest) = Some (xs, rest).
Proof.
  intros C F. induction F as [|p x pieces xs [O P] F IH]; intros fuel L; (destruct fuel as [|fuel]; [cbn in L; lia|]); rewrite items_S.
  - cbn [sepd app]. rewrite closes_close. reflexivity.
  - destruct F as [|p2 x2 pieces xs P2 F].
    + cbn [sepd]. rewrite <- app_assoc. rewrite closes_open by (try assumption; apply opens_app; exact O). destruct trail; cbn [app].
      * rewrite P by (cbn; auto). destruct fuel as [|fuel]; [cbn in L; lia|]. rewrite items_S, closes_close. reflexivity.
      * rewrite P by (cbn; auto). rewrite closes_close. destruct close; try discriminate; reflexivity.
    + rewrite sepd_cons, <- app_assoc. cbn [app]. rewrite closes_open by (try assumption; apply opens_app; exact O).
      rewrite P by (cbn; auto). rewrite IH by (cbn [List.length] in *; lia). reflexivity.
Qed.

(** Stripped tokens that are one expression *)
Definition parses (ts : list tok) (e : expr) : Prop :=
  opens ts /\ forall fuel rest, List.length ts <= fuel -> delim rest -> expression fuel (ts ++ rest) = Some (e, rest).
Lemma parses_parse ts e : parses (strip ts) e -> parse keyword nfkc ts = Some e.
Proof. intros [_ P]. unfold parse. specialize (P (List.length (strip ts)) [] (le_n _) Logic.I). rewrite app_nil_r in P. rewrite P. reflexivity. Qed.
Lemma parses_iparse ts e fuel : parses ts e -> List.length ts <= fuel -> iparse (expression fuel) ts e.
Proof. intros [O P] L. split; [exact O|]. intros rest D. apply P; assumption. Qed.
Lemma parses_lit k v : (k = TInt match v with VInt z => z | _ => 0%Z end /\ (exists z, v = VInt z) \/ (exists b, k = TFloat b /\ v = VFloat b) \/ (exists s, k = TStr s /\ v = VStr s)) ->
  parses [k] (ELit v).
Proof.
  intros K. split; [destruct K as [[-> _]|[[b [-> _]]|[s [-> _]]]]; exact Logic.I|]. intros fuel rest L D. destruct fuel as [|fuel]; [cbn in L; lia|].
  rewrite expression_S. cbn [app]. destruct K as [[-> [z ->]]|[[b [-> ->]]|[s [-> ->]]]]; reflexivity.
Qed.
Lemma parses_name n : parses [TName n] (EName n).
Proof.
  split; [exact Logic.I|]. intros fuel rest L D. destruct fuel as [|fuel]; [cbn in L; lia|]. rewrite expression_S. cbn [app].
  destruct rest as [|[] rest]; try reflexivity. destruct c; try reflexivity. cbn in D. destruct D as [D|[D|D]]; discriminate.
Qed.
Lemma parses_opens ts e : parses ts e -> opens ts. Proof. intros [O _]. exact O. Qed.
Lemma Forall2_opens {A} (P : list tok -> A -> Prop) pieces xs : (forall p x, P p x -> opens p) -> Forall2 P pieces xs -> Forall opens pieces.
Proof. intros Q F. induction F; constructor; eauto. Qed.
Lemma Forall2_weaken {A B} (P Q : A -> B -> Prop) l m : Forall2 P l m -> (forall x y, In x l -> P x y -> Q x y) -> Forall2 Q l m.
Proof. intros F. induction F as [|x y l m PX F IH]; intros W; constructor; [apply W; [left; reflexivity|exact PX]|]. apply IH. intros a b I. apply W. right. exact I. Qed.
(** Displays *)
Lemma parses_list pieces es trail : Forall2 parses pieces es -> parses (TSym LBracket :: sepd pieces trail ++ [TSym RBracket]) (EList es).
Proof.
  intros F. split; [reflexivity|]. intros fuel rest L D. destruct fuel as [|fuel]; [cbn in L; lia|]. rewrite expression_S. cbn [app]. rewrite <- app_assoc. cbn [app].
  cbn [List.length] in L. rewrite app_length in L. cbn [List.length] in L.
  pose proof (sepd_count pieces trail (Forall2_opens parses pieces es (fun p x => parses_opens p x) F)) as LC.
  rewrite (items_sepd (expression fuel) RBracket pieces es trail rest eq_refl); [reflexivity| |lia].
  eapply Forall2_weaken; [exact F|]. intros x y I P. apply parses_iparse; [exact P|]. pose proof (sepd_long pieces trail x I). lia.
Qed.
Definition is_pair (ts : list tok) (kv : expr * expr) : Prop := exists a b, ts = a ++ TSym Colon :: b /\ parses a (fst kv) /\ parses b (snd kv).
Lemma parses_dict pieces es trail : Forall2 is_pair pieces es -> parses (TSym LBrace :: sepd pieces trail ++ [TSym RBrace]) (EDict es).
Proof.
  intros F. split; [reflexivity|]. intros fuel rest L D. destruct fuel as [|fuel]; [cbn in L; lia|]. rewrite expression_S. cbn [app]. rewrite <- app_assoc. cbn [app].
  cbn [List.length] in L. rewrite app_length in L. cbn [List.length] in L.
  assert (forall p x, is_pair p x -> opens p) as PO by (intros p x [a [b [-> [[O _] _]]]]; apply opens_app; exact O).
  pose proof (sepd_count pieces trail (Forall2_opens is_pair pieces es PO F)) as LC.
  rewrite (items_sepd (pairp fuel) RBrace pieces es trail rest eq_refl); [reflexivity| |lia].
  eapply Forall2_weaken; [exact F|]. intros x [k v] I P. split; [eapply PO; exact P|]. pose proof (sepd_long pieces trail x I) as LX.
  destruct P as [a [b [-> [[OA PA] [OB PB]]]]]. rewrite app_length in LX. cbn [List.length fst snd] in *. intros rest' D'. unfold pairp.
  rewrite <- app_assoc. cbn [app]. rewrite PA by (try lia; cbn; auto). rewrite PB by (try lia; exact D'). reflexivity.
Qed.
Lemma parses_tuple pieces es trail : (List.length es = 1 -> trail = true) -> Forall2 parses pieces es -> parses (TSym LPar :: sepd pieces trail ++ [TSym RPar]) (ETuple es).
Proof.
  intros T F. split; [reflexivity|]. intros fuel rest L D. destruct fuel as [|fuel]; [cbn in L; lia|]. rewrite expression_S. cbn [app]. rewrite <- app_assoc. cbn [app].
  cbn [List.length] in L. rewrite app_length in L. cbn [List.length] in L. destruct F as [|p e pieces es P F]; [reflexivity|].
  pose proof (sepd_long (p :: pieces) trail p (or_introl eq_refl)) as LP.
  pose proof (sepd_count (p :: pieces) trail (Forall2_opens parses _ _ (fun p x => parses_opens p x) (Forall2_cons _ _ P F))) as LC. cbn [List.length] in LC.
  assert (O : forall r, match p ++ r with TSym RPar :: _ => False | _ => True end).
  { intros r. destruct P as [O _]. destruct p as [|[] p]; try exact Logic.I; [destruct O|]. cbn in O |- *. destruct c; auto; discriminate. }
  assert (Q : forall r x, match p ++ r with
      | TSym RPar :: r' => Some (ETuple [], r')
      | _ => x end = x).
  { intros r x. specialize (O r). destruct (p ++ r) as [|[] q]; auto. destruct c; auto. destruct O. }
  assert (expression fuel (sepd (p :: pieces) trail ++ TSym RPar :: rest) = Some (e, TSym Comma :: sepd pieces (match pieces with [] => false | _ => trail end) ++ TSym RPar :: rest)) as E.
  { destruct F as [|p2 e2 pieces es P2 F].
    - rewrite T by reflexivity. cbn [sepd]. rewrite <- app_assoc. destruct P as [_ P]. cbn [app]. apply P; [lia|cbn; auto].
    - rewrite sepd_cons, <- app_assoc. destruct P as [_ P]. cbn [app]. rewrite P; [reflexivity|lia|cbn; auto]. }
  rewrite E.
  replace (sepd (p :: pieces) trail ++ TSym RPar :: rest) with (p ++ match pieces with [] => if trail then [TSym Comma] else [] | _ => TSym Comma :: sepd pieces trail end ++ TSym RPar :: rest)
    by (destruct pieces; cbn [sepd]; rewrite <- app_assoc; reflexivity).
  rewrite Q. rewrite (items_sepd (expression fuel) RPar pieces es _ rest eq_refl); [reflexivity| |lia].
  eapply Forall2_weaken; [exact F|]. intros x y I PX. apply parses_iparse; [exact PX|]. pose proof (sepd_long (p :: pieces) trail x (or_intror I)). lia.
Qed.
(** The two-tuples of JSMap([...]) *)
Lemma parses_pair a b ka kb : parses a ka -> parses b kb -> parses (TSym LPar :: a ++ TSym Comma :: b ++ [TSym RPar]) (ETuple [ka; kb]).
Proof.
  intros PA PB. replace (a ++ TSym Comma :: b ++ [TSym RPar]) with (sepd [a; b] false ++ [TSym RPar]).
  - apply parses_tuple; [discriminate|]. constructor; [exact PA|]. constructor; [exact PB|constructor].
  - rewrite sepd_cons. cbn [sepd]. rewrite app_nil_r, <- !app_assoc. reflexivity.
Qed.
(** Calls *)
Inductive is_arg : list tok -> akind * expr -> Prop :=
| ia_pos ts e : parses ts e -> (forall k r, ts <> TName k :: TSym Equals :: r) -> (forall r, ts <> TSym StarStar :: r) -> is_arg ts (APos, e)
| ia_key k ts e : keyword k = false -> nfkc k = k -> parses ts e -> is_arg (TName k :: TSym Equals :: ts) (AKey k, e)
| ia_star ts e : parses ts e -> is_arg (TSym StarStar :: ts) (AStar, e).
Lemma is_arg_opens ts a : is_arg ts a -> opens ts.
Proof. intros [? ? [O _]| |]; [exact O|exact Logic.I|reflexivity]. Qed.
Lemma arg_iparse ts a fuel : is_arg ts a -> List.length ts <= fuel -> iparse (argp fuel) ts a.
Proof.
  intros A L. split; [eapply is_arg_opens; exact A|]. intros rest D. destruct A as [ts e P N1 N2|k ts e K F P|ts e P]; unfold argp.
  - assert (match expression fuel (ts ++ rest) with Some (e, r) => Some ((APos, e), r) | None => None end = Some ((APos, e), rest)) as Q
      by (destruct P as [_ P]; rewrite P by assumption; reflexivity).
    destruct ts as [|x ts]; [destruct (proj1 P)|]. cbn [app] in *. destruct x; try exact Q.
    + destruct ts as [|y ts]; cbn [app] in *.
      * destruct rest as [|y rest]; [exact Q|]. destruct y; try exact Q. destruct c; try exact Q. cbn in D. destruct D as [D|[D|D]]; discriminate.
      * destruct y; try exact Q. destruct c; try exact Q. exfalso. eapply N1. reflexivity.
    + destruct c; try exact Q. exfalso. eapply N2. reflexivity.
  - cbn [app]. rewrite K, F. destruct P as [_ P]. cbn [List.length] in L. rewrite P by (try assumption; lia). reflexivity.
  - cbn [app]. destruct P as [_ P]. cbn [List.length] in L. rewrite P by (try assumption; lia). reflexivity.
Qed.
Lemma parses_call f pieces args trail : keyword f = false -> nfkc f = f -> Forall2 is_arg pieces args ->
  parses (TName f :: TSym LPar :: sepd pieces trail ++ [TSym RPar]) (ECall f args).
Proof.
  intros K NF F. split; [exact Logic.I|]. intros fuel rest L D. destruct fuel as [|fuel]; [cbn in L; lia|]. rewrite expression_S. cbn [app]. rewrite <- app_assoc. cbn [app].
  cbn [List.length] in L. rewrite app_length in L. cbn [List.length] in L. rewrite K, NF.
  pose proof (sepd_count pieces trail (Forall2_opens is_arg pieces args is_arg_opens F)) as LC.
  rewrite (items_sepd (argp fuel) RPar pieces args trail rest eq_refl); [reflexivity| |lia].
  eapply Forall2_weaken; [exact F|]. intros x y I P. apply arg_iparse; [exact P|]. pose proof (sepd_long pieces trail x I). lia.
Qed.

(** ** Stripping *)
Lemma strip_app a b : strip (a ++ b) = strip a ++ strip b.
Proof. apply filter_app. Qed.
Lemma strip_sym c r : strip (TSym c :: r) = TSym c :: strip r. Proof. reflexivity. Qed.
Lemma strip_comma_join pieces : strip (comma_join pieces) = sepd (map strip pieces) false.
Proof.
  induction pieces as [|p r IH]; [reflexivity|]. destruct r as [|q r].
  - cbn [comma_join map sepd]. rewrite app_nil_r. reflexivity.
  - cbn [comma_join]. cbn [comma_join] in IH. rewrite !strip_app, IH. cbn [map]. rewrite sepd_cons. reflexivity.
Qed.
Lemma sepd_snoc pieces p trail : pieces <> [] -> sepd (pieces ++ [p]) trail = sepd pieces true ++ sepd [p] trail.
Proof.
  induction pieces as [|q r IH]; intros NE; [congruence|]. destruct r as [|q2 r].
  - cbn [app sepd]. rewrite <- app_assoc. reflexivity.
  - cbn [app]. rewrite !sepd_cons. change (q2 :: r ++ [p]) with ((q2 :: r) ++ [p]). rewrite IH by discriminate. rewrite <- app_assoc. reflexivity.
Qed.
Lemma strip_join R level pieces ts : join R level pieces = Ok ts ->
  strip ts = sepd (map strip pieces) (match r_indent R with None => false | Some _ => true end).
Proof.
  unfold join. destruct (r_indent R) as [n|].
  - destruct pieces as [|p0 pieces0] eqn:E; [intros [= <-]; reflexivity|]. rewrite <- E in *. assert (pieces <> []) as NE by (rewrite E; discriminate). clear E p0 pieces0.
    destruct (n <? 0)%Z; [discriminate|]. intros [= <-].
    pose proof (app_removelast_last [] NE) as EQ. revert EQ. generalize (last pieces []) as p. generalize (removelast pieces) as q. intros q p ->. clear NE.
    match goal with |- strip (TLine ?a :: ?x) = _ => change (strip (TLine a :: x)) with (strip x) end.
    rewrite !strip_app, map_app. cbn [map]. change (strip [TSym Comma; TLine _]) with [TSym Comma]. destruct q as [|q0 q].
    + reflexivity.
    + rewrite sepd_snoc by discriminate. cbn [sepd]. f_equal.
      generalize (q0 :: q) as l. clear. intros l. induction l as [|a [|b l] IH].
      * reflexivity.
      * cbn [map concat sepd]. rewrite app_nil_r, strip_app. reflexivity.
      * cbn [map]. rewrite sepd_cons. cbn [concat map] in *. rewrite strip_app, IH, strip_app. change (strip [TSym Comma; TLine _]) with [TSym Comma].
        rewrite <- app_assoc. reflexivity.
  - intros [= <-]. apply strip_comma_join.
Qed.
End Parse.
