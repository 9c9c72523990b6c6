(** C27, C28, C29, C51, C53 and C54: attributes. *)
From Coq Require Import List Arith NArith Bool.
From Verif Require Import Base StringModel NameModel AttrModel AttrSpec AttrGood AttrMapSpec AttrMaps AttrTheorems AttrLaws AttrTypeSpec AttrTypes AttrWitness.
Import ListNotations.
Local Open Scope N_scope.

(** ** C54: every legal attribute call answers as its meaning says, and none goes
    wrong *)
Theorem C54_attribute_calls : forall k s Q o, areach k s Q -> N.of_nat k < 4294967290 -> alegal Q o ->
  answer (aexec o s) = Some (fst (qmeans o Q)).
Proof. exact attributes_refine. Qed.
Example C54_case : areach (length prefixed) (astate prefixed) (ameans prefixed) /\ alegal (ameans prefixed) (ARemove 0 svg id_) /\
  answer (aexec (ARemove 0 svg id_) (astate prefixed)) = Some RDone.
Proof. split; [apply played_areach; vm_compute; reflexivity|]. split; [apply legalb_ok; vm_compute; reflexivity|vm_compute; reflexivity]. Qed.

(** ** C27 and C53: a finite map from names *)
Theorem C27_get_partial : forall k s Q W, dreach plain k s Q W -> N.of_nat k < 4294967279 -> forall e ro d n, w_el W e = Some (ro, d) ->
  answer (aexec (AGet e None n) s) = Some (RVal (lookup d (None, n))) /\
  answer (aexec (AHas e None n) s) = Some (RBool match lookup d (None, n) with Some _ => true | None => false end).
Proof. exact (fun k s Q W D B e ro d n WE => conj (plain_get k s Q W D B e ro d n WE) (plain_has k s Q W D B e ro d n WE)). Qed.

Theorem C27_set_partial : forall k s Q W, dreach plain k s Q W -> N.of_nat k < 4294967279 -> forall j e d n v, w_el W e = Some (false, d) ->
  a_name n -> attribute_name_ok n = true ->
  exists s', aexec (ASet j e None n v) s = Ok RDone s' /\
  forall e' n', w_el W e' <> None ->
    answer (aexec (AGet e' None n') s') = (if Nat.eqb e' e && bytes_eqb n' n then Some (RVal (Some (shown v))) else answer (aexec (AGet e' None n') s)) /\
    answer (aexec (AHas e' None n') s') = (if Nat.eqb e' e && bytes_eqb n' n then Some (RBool true) else answer (aexec (AHas e' None n') s)).
Proof. exact plain_set. Qed.

Theorem C27_remove_partial : forall k s Q W, dreach plain k s Q W -> N.of_nat k < 4294967279 -> forall e d n, w_el W e = Some (false, d) ->
  exists s', aexec (ARemove e None n) s = Ok RDone s' /\
  forall e' n', w_el W e' <> None ->
    answer (aexec (AGet e' None n') s') = (if Nat.eqb e' e && bytes_eqb n' n then Some (RVal None) else answer (aexec (AGet e' None n') s)) /\
    answer (aexec (AHas e' None n') s') = (if Nat.eqb e' e && bytes_eqb n' n then Some (RBool false) else answer (aexec (AHas e' None n') s)).
Proof. exact plain_remove. Qed.

Theorem C27_item_partial : forall k s Q W, dreach plain k s Q W -> N.of_nat k < 4294967279 -> forall e ro d i, w_el W e = Some (ro, d) -> i < 4294967296 ->
  match (if i <? N.of_nat (length d) then nth_error d (N.to_nat i) else None) with
  | Some (c, v) => exists a s', aexec (AItem e i) s = Ok (RAttr (Some a)) s' /\
       answer (aexec (AName a) s') = Some (RVal (Some (snd c))) /\ answer (aexec (AValue a) s') = Some (RVal (Some v))
  | None => answer (aexec (AItem e i) s) = Some (RAttr None)
  end.
Proof. exact plain_item. Qed.

Theorem C27_length_partial : forall k s Q W, dreach plain k s Q W -> N.of_nat k < 4294967279 -> forall e ro d, w_el W e = Some (ro, d) ->
  answer (aexec (ALength e) s) = Some (RNum (N.of_nat (length d))).
Proof. exact plain_length. Qed.

Theorem C27_names_partial : forall k s Q W, dreach plain k s Q W -> N.of_nat k < 4294967279 -> forall e ro d, w_el W e = Some (ro, d) ->
  NoDup (map snd (map fst d)) /\ forall c, In c (map fst d) -> fst c = None.
Proof. exact plain_names. Qed.

(** What the dictionary of a history is: a set of an existing name keeps its place,
    of a new one adds at the end. *)
Theorem C27_in_place_partial : forall d c v, (lookup d c <> None -> map fst (store d c v) = map fst d) /\ (lookup d c = None -> store d c v = d ++ [(c, v)]).
Proof. exact (fun d c v => conj (set_in_place d c v) (set_at_end d c v)). Qed.

(** All of it for histories of calls by name. *)
Theorem C53_attributes_are_a_map : forall k s Q W, dreach plain k s Q W -> N.of_nat k < 4294967279 -> forall e ro d, w_el W e = Some (ro, d) ->
  (forall n, answer (aexec (AGet e None n) s) = Some (RVal (lookup d (None, n)))) /\
  (forall n, answer (aexec (AHas e None n) s) = Some (RBool match lookup d (None, n) with Some _ => true | None => false end)) /\
  answer (aexec (ALength e) s) = Some (RNum (N.of_nat (length d))) /\
  (forall i, i < 4294967296 ->
     match (if i <? N.of_nat (length d) then nth_error d (N.to_nat i) else None) with
     | Some (c, v) => exists a s', aexec (AItem e i) s = Ok (RAttr (Some a)) s' /\
          answer (aexec (AName a) s') = Some (RVal (Some (snd c))) /\ answer (aexec (AValue a) s') = Some (RVal (Some v))
     | None => answer (aexec (AItem e i) s) = Some (RAttr None)
     end) /\
  (NoDup (map snd (map fst d)) /\ forall c, In c (map fst d) -> fst c = None).
Proof.
  exact (fun k s Q W D B e ro d WE => conj (fun n => plain_get k s Q W D B e ro d n WE) (conj (fun n => plain_has k s Q W D B e ro d n WE)
    (conj (plain_length k s Q W D B e ro d WE) (conj (fun i => plain_item k s Q W D B e ro d i WE) (plain_names k s Q W D B e ro d WE))))).
Qed.

Theorem C53_set : forall k s Q W, dreach plain k s Q W -> N.of_nat k < 4294967279 -> forall j e d n v, w_el W e = Some (false, d) ->
  a_name n -> attribute_name_ok n = true ->
  exists s', aexec (ASet j e None n v) s = Ok RDone s' /\
  forall e' n', w_el W e' <> None ->
    answer (aexec (AGet e' None n') s') = (if Nat.eqb e' e && bytes_eqb n' n then Some (RVal (Some (shown v))) else answer (aexec (AGet e' None n') s)) /\
    answer (aexec (AHas e' None n') s') = (if Nat.eqb e' e && bytes_eqb n' n then Some (RBool true) else answer (aexec (AHas e' None n') s)).
Proof. exact plain_set. Qed.

Theorem C53_remove : forall k s Q W, dreach plain k s Q W -> N.of_nat k < 4294967279 -> forall e d n, w_el W e = Some (false, d) ->
  exists s', aexec (ARemove e None n) s = Ok RDone s' /\
  forall e' n', w_el W e' <> None ->
    answer (aexec (AGet e' None n') s') = (if Nat.eqb e' e && bytes_eqb n' n then Some (RVal None) else answer (aexec (AGet e' None n') s)) /\
    answer (aexec (AHas e' None n') s') = (if Nat.eqb e' e && bytes_eqb n' n then Some (RBool false) else answer (aexec (AHas e' None n') s)).
Proof. exact plain_remove. Qed.

(** setAttributeNode in place of the first attribute touches freed memory. *)
Theorem C27_set_attribute_node_refuted : exists k s Q e a, areach k s Q /\ an_element Q e /\ owned Q a /\ aexec (ASetNode e None a) s = Bad UseAfterFree.
Proof. exact replace_first. Qed.

(** So does the setting of the value of an attribute that no element has. *)
Theorem C27_unattached_refuted : exists k s Q a v, areach k s Q /\ owned Q a /\ aexec (ASetValue a v) s = Bad NullDeref.
Proof. exact unattached. Qed.

Example C27_case : dreach plain (length form) (astate form) (ameans form) (wplay form no_world) /\ N.of_nat (length form) < 4294967279 /\
  w_el (wplay form no_world) 0%nat = Some (false, form_dict) /\ w_el (wplay form no_world) 1%nat = Some (true, []) /\ a_name id_ /\ attribute_name_ok id_ = true /\
  answer (aexec (AGet 0 None title_) (astate form)) = Some (RVal (Some av)) /\ answer (aexec (AHas 0 None [120]) (astate form)) = Some (RBool false) /\
  answer (aexec (ALength 0) (astate form)) = Some (RNum 3).
Proof. exact form_case. Qed.

(** ** C28: namespaces *)

(** Histories in which no call without a namespace names a namespaced attribute of
    its element: a map keyed by namespace and local name. *)
Theorem C28_get_partial : forall k s Q W, dreach unambiguous k s Q W -> N.of_nat k < 4294967280 -> forall e ro d ns n, w_el W e = Some (ro, d) ->
  unambiguous W (AGet e ns n) -> answer (aexec (AGet e ns n) s) = Some (RVal (lookup d (ns, n))).
Proof. exact dict_get. Qed.

Theorem C28_set_partial : forall k s Q W, dreach unambiguous k s Q W -> N.of_nat k < 4294967279 -> forall j e d ns n v, w_el W e = Some (false, d) ->
  a_name n -> attribute_name_ok n = true -> unambiguous W (AGet e ns n) ->
  exists s', aexec (ASet j e ns n v) s = Ok RDone s' /\
  forall e' ns' n', w_el W e' <> None -> clear W e ns n e' ns' n' ->
    answer (aexec (AGet e' ns' n') s') = (if same_element e' e (ns', n') (ns, n) then Some (RVal (Some (shown v))) else answer (aexec (AGet e' ns' n') s)) /\
    answer (aexec (AHas e' ns' n') s') = (if same_element e' e (ns', n') (ns, n) then Some (RBool true) else answer (aexec (AHas e' ns' n') s)).
Proof. exact set_law. Qed.

Theorem C28_remove_partial : forall k s Q W, dreach unambiguous k s Q W -> N.of_nat k < 4294967279 -> forall e d ns n, w_el W e = Some (false, d) ->
  unambiguous W (AGet e ns n) ->
  exists s', aexec (ARemove e ns n) s = Ok RDone s' /\
  forall e' ns' n', w_el W e' <> None -> unambiguous W (AGet e' ns' n') ->
    answer (aexec (AGet e' ns' n') s') = (if same_element e' e (ns', n') (ns, n) then Some (RVal None) else answer (aexec (AGet e' ns' n') s)) /\
    answer (aexec (AHas e' ns' n') s') = (if same_element e' e (ns', n') (ns, n) then Some (RBool false) else answer (aexec (AHas e' ns' n') s)).
Proof. exact remove_law. Qed.

Theorem C28_failing_set_partial : forall k s Q W, dreach unambiguous k s Q W -> N.of_nat k < 4294967279 -> forall j e ro d ns n v, w_el W e = Some (ro, d) ->
  a_name n -> unambiguous W (AGet e ns n) -> ro = true \/ attribute_name_ok n = false ->
  answer (aexec (ASet j e ns n v) s) = Some (RErr (if attribute_name_ok n then NO_MODIFICATION_ALLOWED_ERR else INVALID_CHARACTER_ERR)).
Proof. exact failing_set. Qed.

(** A lookup without a namespace finds an attribute that has one. *)
Theorem C28_null_lookup_refuted : exists k s Q e ns n v, areach k s Q /\ answer (aexec (AHas e ns n) s) = Some (RBool true) /\ ns <> None /\
  (exists W, dreach unambiguous k s Q W /\ exists ro d, w_el W e = Some (ro, d) /\ lookup d (None, n) = None) /\
  answer (aexec (AGet e None n) s) = Some (RVal (Some v)) /\ answer (aexec (AHas e None n) s) = Some (RBool true).
Proof. exact null_sees. Qed.

(** A set without a namespace overwrites it. *)
Theorem C28_null_set_refuted : exists k s Q j e ns n v w s', areach k s Q /\ ns <> None /\ v <> w /\
  answer (aexec (AGet e ns n) s) = Some (RVal (Some v)) /\
  aexec (ASet j e None n (Some w)) s = Ok RDone s' /\
  answer (aexec (AGet e ns n) s') = Some (RVal (Some w)).
Proof. exact null_overwrites. Qed.

(** removeAttributeNode does not find a prefixed attribute. *)
Theorem C28_prefixed_refuted : exists k s Q e ns a, areach k s Q /\ alegal Q (ARemoveNode e ns a) /\
  answer (aexec (AItem e 0) s) = Some (RAttr (Some a)) /\ answer (aexec (ARemoveNode e ns a) s) = Some (RErr NOT_FOUND_ERR).
Proof. exact prefixed_stays. Qed.

Example C28_case : dreach unambiguous (length drawing) (astate drawing) (ameans drawing) (wplay drawing no_world) /\ N.of_nat (length drawing) < 4294967279 /\
  w_el (wplay drawing no_world) 0%nat = Some (false, [((svg, id_), bv); ((Some [120], id_), bv); ((None, title_), bv)]) /\
  unambiguous (wplay drawing no_world) (AGet 0 None title_).
Proof. exact drawing_case. Qed.

(** ** C29: class names *)

(** Histories in which the class attribute is set only while there is none, values
    with no other blanks than spaces. *)
Theorem C29_has_class_partial : forall k s Q W e y ro d c, dreach class_once k s Q W -> N.of_nat k < 4294967280 ->
  q_el Q e = Some y -> w_el W e = Some (ro, d) ->
  (forall v, lookup d class_key = Some v -> spaced v) ->
  exists b, answer (aexec (AClass e c) s) = Some (RBool b) /\
    (b = true <-> exists v t, lookup d class_key = Some v /\ word t v /\ (if q_quirks y then map lower c = map lower t else c = t)).
Proof. exact class_answers. Qed.

(** Setting the class attribute again leaves the old names. *)
Theorem C29_stale_refuted : exists k s Q e v, areach k s Q /\ answer (aexec (AGet e None s_class) s) = Some (RVal (Some v)) /\
  (exists c, word c v /\ answer (aexec (AClass e c) s) = Some (RBool false)) /\ (exists c, ~ word c v /\ answer (aexec (AClass e c) s) = Some (RBool true)).
Proof. exact stale_class. Qed.

(** A tab does not separate. *)
Theorem C29_tab_refuted : exists k s Q W e v c, dreach class_once k s Q W /\ answer (aexec (AGet e None s_class) s) = Some (RVal (Some v)) /\
  word c v /\ answer (aexec (AClass e c) s) = Some (RBool false).
Proof. exact tab_class. Qed.

Example C29_case : dreach class_once (length classy) (astate classy) (ameans classy) (wplay classy no_world) /\ N.of_nat (length classy) < 4294967280 /\
  w_el (wplay classy no_world) 0%nat = Some (false, [(class_key, av ++ 32 :: bv)]) /\ w_el (wplay classy no_world) 1%nat = Some (false, [(class_key, [65; 98])]) /\
  spaced (av ++ 32 :: bv) /\ word av (av ++ 32 :: bv) /\ ~ word (av ++ 32 :: bv) (av ++ 32 :: bv) /\
  answer (aexec (AClass 0 bv) (astate classy)) = Some (RBool true) /\ answer (aexec (AClass 1 [97; 98]) (astate classy)) = Some (RBool true) /\
  answer (aexec (AClass 1 bv) (astate classy)) = Some (RBool false).
Proof. exact classy_case. Qed.

(** ** C51: typed values *)

(** As long as no set reaches a new attribute, no typed get succeeds and every
    typed set does. *)
Theorem C51_first_set_partial : forall k s Q j d l ns pf r s1, areach k s Q -> aexec (ACreate j d l ns pf) s = Ok (RAttr (Some r)) s1 ->
  forall k' s' Q', further (sets_nothing r) (S k) s1 (snd (qmeans (ACreate j d l ns pf) Q)) k' s' Q' -> N.of_nat k' < 4294967280 -> owned Q' r ->
  (forall c, answer (aexec (tget c r) s') = Some mismatch) /\ (forall t, answer (aexec (tset r t) s') = Some RDone).
Proof. exact typed_first. Qed.

(** After a typed set, and any calls that are not typed sets of this attribute, a
    get of the type gives the value and one of another type fails. *)
Theorem C51_get_partial : forall k s Q a t s1, areach k s Q -> owned Q a -> aexec (tset a t) s = Ok RDone s1 ->
  forall k' s' Q', further (other_than_tset a) (S k) s1 (snd (qmeans (tset a t) Q)) k' s' Q' -> N.of_nat k' < 4294967280 -> owned Q' a ->
  forall c, answer (aexec (tget c a) s') = Some (if kind_dec c (kind_of t) then told t else mismatch).
Proof. exact typed_get. Qed.

(** After a typed set, and any calls at all, sets of the type succeed and sets of
    another fail. *)
Theorem C51_type_fixed_partial : forall k s Q a t s1, areach k s Q -> owned Q a -> aexec (tset a t) s = Ok RDone s1 ->
  forall k' s' Q', further (fun _ => True) (S k) s1 (snd (qmeans (tset a t) Q)) k' s' Q' -> N.of_nat k' < 4294967280 -> owned Q' a ->
  forall t', answer (aexec (tset a t') s') = Some (if kind_dec (kind_of t') (kind_of t) then RDone else mismatch).
Proof. exact typed_fixed. Qed.

(** A typed set that fails changes no answer. *)
Theorem C51_failing_set_partial : forall k s Q a t e s1, areach k s Q -> N.of_nat k < 4294967280 -> owned Q a -> aexec (tset a t) s = Exc e s1 ->
  e = ATTR_WRONG_TYPE_ERR /\ forall o, alegal Q o -> answer (aexec o s1) = answer (aexec o s).
Proof. exact typed_fails. Qed.

(** The string view does not follow the typed one. *)
Theorem C51_string_view_refuted : exists k s Q a n, areach k s Q /\ owned Q a /\
  answer (aexec (AGetShort a) s) = Some (RNum n) /\ answer (aexec (AValue a) s) = Some (RVal (Some [])).
Proof. exact string_view. Qed.

Example C51_case : areach 3 ts0 tq0 /\ owned tq0 0%nat /\ aexec (tset 0 (TShort 5)) ts0 = Ok RDone ts1 /\
  further (other_than_tset 0) 4 ts1 tq1 5 ts3 tq3 /\ owned tq3 0%nat /\
  aexec (tset 0 (TBool true)) ts1 = Exc ATTR_WRONG_TYPE_ERR ts2 /\
  answer (aexec (AGetShort 0) ts3) = Some (RNum 5) /\ answer (aexec (AGetBool 0) ts3) = Some mismatch.
Proof. exact typed_case. Qed.
Example C51_fresh_case : areach 1 fs0 fq0 /\ aexec fo fs0 = Ok (RAttr (Some 0%nat)) fs1 /\ further (sets_nothing 0) 2 fs1 fq1 3 fs2 fq2 /\ owned fq2 0%nat.
Proof. exact fresh_case. Qed.

Definition attribute_theorems := (C54_attribute_calls, C53_attributes_are_a_map, C53_set, C53_remove, C27_get_partial, C27_set_partial, C27_remove_partial, C27_item_partial, C27_length_partial, C27_names_partial,
  C27_in_place_partial, C27_set_attribute_node_refuted, C27_unattached_refuted, C28_get_partial, C28_set_partial, C28_remove_partial, C28_failing_set_partial,
  C28_null_lookup_refuted, C28_null_set_refuted, C28_prefixed_refuted, C29_has_class_partial, C29_stale_refuted, C29_tab_refuted,
  C51_first_set_partial, C51_get_partial, C51_type_fixed_partial, C51_failing_set_partial, C51_string_view_refuted).
Print Assumptions attribute_theorems.
