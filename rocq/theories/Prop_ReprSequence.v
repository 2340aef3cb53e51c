(** C60: the repr of Python lists and tuples of JavaScript values. *)
From Coq Require Import Ascii String List NArith ZArith Bool Arith Lia ZifyBool.
From Verif Require Import Base Dict SpecNumber ModelTags ModelArray ModelValue ModelObject ModelMap ModelHeap ModelEncode ModelReprText
  ArrayFacts ArrayFacts3 SpecMap SpecEq SpecRepr ReprFacts ReprFacts3 ReprFacts4 ReprFacts6 ReprFacts7 ReprFacts8 ModelEq Prop_Eq Prop_ReprText.
Import ListNotations.
Open Scope list_scope.
Open Scope nat_scope.

Lemma evals_tuple H fr {K} (ds : list (item K)) : Forall (good H fr) ds ->
  evals H (map dv ds) (eval fr (ETuple (map de ds))) (fun vs' x => length vs' = length ds /\ x = PTuple (map PV vs')).
Proof.
  intros F. pose proof (evals_list H fr ds F) as L. intros G X. destruct (L G X) as [vs' [N [x [E [RS [q1 q2]]]]]]. exists vs', N, (PTuple (map PV vs')).
  split; [|auto]. rewrite eval_list_eq in E. rewrite eval_tuple_eq. unfold e_bind, e_ret in *.
  destruct (e_each (eval fr) (map de ds) G) as [[l G']|]; [|discriminate]. injection E as E1 E2. rewrite q2 in E1. injection E1 as ->. rewrite E2. reflexivity.
Qed.
(** A list or tuple whose members are all shown: the text is a display of the same kind, and its members evaluate to copies of the members. *)
Theorem C60_sequences : forall H R t isidentifier isspace whole is_enum keyword nfkc float_repr level (tuple : bool) l o s,
  sane_indent R -> Forall (plain_name keyword nfkc) own_names -> (forall o, ~ In (o, t) s) ->
  nth_error H o = Some (OSeq tuple l) -> r_maxlevel R = S level -> (zlen l <= if tuple then r_maxtuple R else r_maxlist R)%Z ->
  (forall v, In v l -> shown H R isidentifier whole is_enum keyword nfkc float_repr level [o] v) ->
  exists ts e l' N,
    js_repr H R t isidentifier isspace whole is_enum (VRef o) s = (Ok ts, s) /\
    parse keyword nfkc ts = Some e /\ eval float_repr e H = Some ((if tuple then PTuple else PList) (map PV l'), H ++ N) /\
    Forall2 (copy (H ++ N)) l l' /\ (forall b, In (VRef b) l' -> length H <= b).
Proof.
  intros H R t isi iss whole en kw nf fr level tuple l o s IND PL FR HO LV LE SH.
  assert (KM : ModelEq.kmem (o, t) s = false). { destruct (ModelEq.kmem (o, t) s) eqn:K; auto. apply kmem_in in K. destruct (FR o K). }
  set (s' := ModelEq.kadd (o, t) s). set (r := repr1 H R t isi iss whole en level).
  assert (IH : forall v, shown H R isi whole en kw nf fr level [o] v -> exists ts e, runs s' (r v) ts /\ parses kw nf (strip ts) e /\ evaluates H fr v e).
  { intros v. apply repr_evaluates; auto. intros o' K. apply kmem_in in K. unfold s', ModelEq.kadd in K. rewrite KM in K.
    destruct K as [K|K]; [injection K as ->; left; reflexivity|destruct (FR o' K)]. }
  destruct (choose H kw nf fr r s' _ IH (map (fun v => (tt, v)) l)) as [ds [E F]].
  { intros k v I. apply in_map_iff in I as [w [Q I]]. injection Q as _ <-. auto. }
  destruct (choose_keys _ _ E) as [_ DV]. rewrite map_map in DV. cbn [snd] in DV. rewrite map_id in DV.
  destruct (join_ok R en IND (S level) (map dt ds)) as [ts [J S]].
  set (one := tuple && (zlen l =? 1)%Z && match r_indent R with None => true | _ => false end).
  set (open := if tuple then LPar else LBracket). set (close := if tuple then RPar else RBracket).
  set (out := [TSym open] ++ ts ++ (if one then [TSym Comma] else []) ++ [TSym close]).
  assert (LR : js_repr H R t isi iss whole en (VRef o) s = (Ok out, s)).
  { unfold js_repr. rewrite LV. cbn [repr1]. rewrite KM. fold s'. fold r.
    assert (runs s' (repr_object_at H R isi iss en r (Datatypes.S level) o) out) as RR.
    { unfold repr_object_at. rewrite HO.
      assert (forall a b m, (zlen l <= m)%Z -> runs s' (repr_iterable R r (Datatypes.S level) l [TSym a] [TSym b] m tuple)
          ([TSym a] ++ ts ++ (if one then [TSym Comma] else []) ++ [TSym b])) as RI.
      { intros a b m Lm. unfold repr_iterable. eapply runs_bind; [apply (islice_all en level); exact Lm|].
        eapply runs_bind; [rewrite <- DV at 1; apply (each_ready H kw nf fr r s' r dv dt); [|exact F]; intros d [D _]; exact D|].
        eapply runs_bind with (x := ts).
        - destruct (m <? zlen l)%Z eqn:Q; [lia|]. rewrite app_nil_r. unfold joined. rewrite J. reflexivity.
        - reflexivity. }
      unfold out, open, close. destruct tuple; apply RI; exact LE. }
    unfold runs in RR. rewrite RR. unfold s'. rewrite kdel_kadd by exact KM. reflexivity. }
  assert (EX : parses kw nf (strip out) ((if tuple then ETuple else EList) (map de ds))).
  { unfold out. rewrite !strip_app, S. set (pieces := map strip (map dt ds)).
    assert (P2 : Forall2 (parses kw nf) pieces (map de ds)) by (eapply plain_exprs; exact F).
    assert (Ll : length ds = length l) by (rewrite <- DV, map_length; reflexivity).
    unfold open, close, one. destruct tuple; cbn [andb].
    - destruct (zlen l =? 1)%Z eqn:Z1; cbn [andb].
      + assert (length ds = 1) as L1 by (unfold zlen in Z1; lia). destruct ds as [|d [|d2 ds]]; try discriminate. cbn [map] in pieces.
        unfold trail. destruct (r_indent R); cbn [strip filter app]; [apply (parses_tuple kw nf pieces _ true); auto|].
        unfold pieces. cbn [sepd]. rewrite app_nil_r. 
        replace (TSym LPar :: strip (dt d) ++ [TSym Comma; TSym RPar]) with (TSym LPar :: sepd [strip (dt d)] true ++ [TSym RPar]) by (cbn [sepd]; rewrite <- app_assoc; reflexivity).
        apply parses_tuple; auto.
      + cbn [strip filter app]. apply parses_tuple; [|exact P2]. rewrite map_length. unfold zlen in Z1. intros L1. lia.
    - cbn [strip filter app]. apply parses_list. exact P2. }
  assert (EV : evals H (map dv ds) (eval fr ((if tuple then ETuple else EList) (map de ds))) (fun vs' x => length vs' = length ds /\ x = (if tuple then PTuple else PList) (map PV vs'))).
  { destruct tuple; [apply evals_tuple|apply evals_list]; apply ready_good in F; exact F. }
  destruct (EV H) as [vs' [N [x [E4 [RS [Lv ->]]]]]]; [exists []; rewrite app_nil_r; reflexivity|].
  exists out, ((if tuple then ETuple else EList) (map de ds)), vs', N. split; [exact LR|]. split; [apply parses_parse, EX|].
  split; [rewrite E4; destruct tuple; reflexivity|]. rewrite DV in RS. split; [exact (rs_copy _ _ _ _ RS)|]. intros b I. exact (proj1 (rs_fresh _ _ _ _ RS b I)).
Qed.
Print Assumptions C60_sequences.
(** A tuple of one JSError: (JSError('oops'),). The members of a sequence cannot be sequences themselves here, as [shown] has none. *)
Definition seq_heap : heap := [OSeq true [VRef 1]; OError (chars "Error") (Some (chars "oops")) None VNone].
Definition seq_settings : rsettings := mkR 6 4 20 4 6 6 6 (chars "...") None.
Example C60_sequences_hypotheses : nth_error seq_heap 0 = Some (OSeq true [VRef 1]) /\ r_maxlevel seq_settings = 6 /\ (zlen [VRef 1] <= r_maxtuple seq_settings)%Z /\
  forall v, In v [VRef 1] -> shown seq_heap seq_settings (fun _ => true) all_short no_enum (fun _ => false) (fun n => n) (fun _ => []) 5 [0] v.
Proof.
  split; [reflexivity|]. split; [reflexivity|]. split; [cbn; lia|]. intros v [<-|[]]. cbn [shown]. split; [intros [?|[]]; discriminate|].
  eexists. split; [reflexivity|]. split.
  - intros v ->. exact Logic.I.
  - split; [discriminate|]. split; [reflexivity|]. split; [reflexivity|]. intros t _. reflexivity.
Qed.
Example C60_sequences_example : exists ts e N,
  js_repr seq_heap seq_settings 0 (fun _ => true) is_blank all_short no_enum (VRef 0) [] = (Ok ts, []) /\
  ts = [TSym LPar] ++ [TName (chars "JSError"); TSym LPar; TStr (chars "oops"); TSym RPar] ++ [TSym Comma; TSym RPar] /\
  parse (fun _ => false) (fun n => n) ts = Some e /\ eval (fun _ => []) e seq_heap = Some (PTuple [PV (VRef 2)], seq_heap ++ N).
Proof.
  do 3 eexists. split; [vm_compute; reflexivity|]. split; [vm_compute; reflexivity|]. split; [vm_compute; reflexivity|].
  instantiate (1 := [OError (chars "Error") (Some (chars "oops")) None VNone]). vm_compute. reflexivity.
Qed.
