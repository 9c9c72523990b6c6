(** Concrete attribute histories. *)
From Coq Require Import List Arith NArith Bool Lia ZifyBool ZifyNat ZifyN.
From Verif Require Import Base StringModel StringSpec NameModel AttrModel AttrSpec AttrMapSpec AttrTypeSpec AttrTheorems.
Import ListNotations.
Local Open Scope N_scope.

(** ** Playing a history *)
Definition asciib (k : bytes) : bool := forallb (fun c => c <? 128) k && (N.of_nat (length k) <? 1000).
Lemma ascii_name : forall k, asciib k = true -> a_name k.
Proof.
  intros k H. apply andb_prop in H as [H L]. exists k. rewrite forallb_forall in H.
  assert (E : encoded k = k).
  { clear L. induction k as [|c k IH]; auto. unfold encoded in *. cbn [flat_map]. rewrite IH by (intros; apply H; right; auto). unfold utf8. rewrite (H c (or_introl eq_refl)). auto. }
  split; [|auto]. split; [|rewrite E; unfold two32; lia]. apply Forall_forall. intros c I. apply H in I. unfold character. lia.
Qed.

Definition ownedb (Q : attrs) (a : nat) : bool := match q_at Q a with Some x => 0 <? a_ref x | None => false end.
Definition elb (Q : attrs) (e : nat) : bool := match q_el Q e with Some _ => true | None => false end.
Definition legalb (Q : attrs) (o : aop) : bool :=
  match o with
  | ANew _ _ _ | ACreate _ _ _ _ _ => true
  | ASet _ e _ k _ => elb Q e && asciib k
  | AGet e _ _ | AHas e _ _ | ARemove e _ _ | ALength e | AClass e _ | ANode e _ _ => elb Q e
  | AItem e i => elb Q e && (i <? 4294967296)
  | ASetNode e ns a => ownedb Q a &&
      match q_el Q e, q_at Q a with
      | Some y, Some x => match entry ns (a_local x) (q_ents y) with None => negb (existsb (Nat.eqb a) (map l_attr (q_ents y))) | Some _ => false end
      | _, _ => false
      end
  | ARemoveNode e _ a => elb Q e && ownedb Q a
  | ASetValue a _ => ownedb Q a && match q_at Q a with Some x => match a_parent x with Some _ => true | None => false end | None => false end
  | AValue a | AGetBool a | ASetBool a _ | AGetShort a | ASetShort a _ | AGetInt a | ASetInt a _ | ARef a | AUnref a | AName a => ownedb Q a
  end.
Lemma ownedb_ok : forall Q a, ownedb Q a = true -> owned Q a.
Proof. intros Q a. unfold ownedb, owned. destruct (q_at Q a) as [x|]; [|discriminate]. intros H. exists x. split; auto. lia. Qed.
Lemma elb_ok : forall Q e, elb Q e = true -> an_element Q e.
Proof. intros Q e. unfold elb, an_element. destruct (q_el Q e); congruence. Qed.
Lemma legalb_ok : forall Q o, legalb Q o = true -> alegal Q o.
Proof.
  intros Q o H. destruct o; cbn [legalb] in H; cbn [alegal]; try exact I; try (apply andb_prop in H as [H1 H2]);
    try (apply elb_ok; assumption); try (apply ownedb_ok; assumption); try (split; [apply elb_ok; assumption|]; try (apply ascii_name; assumption); try (apply ownedb_ok; assumption); lia).
  - destruct (q_el Q e) as [y|] eqn:Y; [|discriminate]. destruct (q_at Q a) as [x|] eqn:X; [|discriminate].
    destruct (entry ns (a_local x) (q_ents y)) eqn:E; [discriminate|]. split; [unfold an_element; congruence|]. split; [apply ownedb_ok; auto|]. split.
    + intros y0 x0 n Y0 X0. inversion Y0; inversion X0; subst. congruence.
    + intros y0 x0 m Y0 X0 IM LM. inversion Y0; inversion X0; subst. exfalso. apply negb_true_iff in H2.
      assert (T : existsb (Nat.eqb (l_attr m)) (map l_attr (q_ents y0)) = true) by (apply existsb_exists; exists (l_attr m); split; [apply in_map; auto|apply Nat.eqb_refl]). congruence.
  - split; [apply ownedb_ok; auto|]. destruct (q_at Q a) as [x|]; [|discriminate]. exists x. split; auto. destruct (a_parent x); congruence.
Qed.

Fixpoint aplay (l : list aop) (s : ast) (Q : attrs) : option (ast * attrs) :=
  match l with
  | [] => Some (s, Q)
  | o :: l => if legalb Q o then match aexec o s with Ok _ s' | Exc _ s' => aplay l s' (snd (qmeans o Q)) | Bad _ => None end else None
  end.
Lemma aplay_reach : forall l k s Q, areach k s Q -> aplay l s Q <> None -> exists s' Q', aplay l s Q = Some (s', Q') /\ areach (k + length l) s' Q'.
Proof.
  induction l as [|o l IH]; intros k s Q A H; cbn [aplay] in *.
  - exists s, Q. rewrite Nat.add_0_r. auto.
  - destruct (legalb Q o) eqn:L; [|congruence]. apply legalb_ok in L. cbn [length]. rewrite <- Nat.add_succ_comm.
    destruct (aexec o s) as [r s'|x s'|b] eqn:E; [| |congruence]; apply IH; auto; [eapply ar_ok|eapply ar_exc]; eauto.
Qed.
Definition astate (l : list aop) : ast := match aplay l no_ast no_attrs with Some (s, _) => s | None => no_ast end.
Definition ameans (l : list aop) : attrs := match aplay l no_ast no_attrs with Some (_, Q) => Q | None => no_attrs end.
Definition playsb (l : list aop) : bool := match aplay l no_ast no_attrs with Some _ => true | None => false end.
Lemma played_areach : forall l, playsb l = true -> areach (length l) (astate l) (ameans l).
Proof.
  intros l H. unfold playsb in H. destruct (aplay_reach l 0 no_ast no_attrs ar_start) as (s' & Q' & E & A); [destruct (aplay _ _ _); congruence|].
  unfold astate, ameans. rewrite E. exact A.
Qed.
Lemma plays : forall l, playsb l = true -> (length l <? 100)%nat = true -> areach (length l) (astate l) (ameans l) /\ N.of_nat (length l) < 4294967279.
Proof. intros l H B. split; [apply played_areach; auto|]. lia. Qed.
Lemma legal_now : forall l o, legalb (ameans l) o = true -> alegal (ameans l) o.
Proof. intros l o. apply legalb_ok. Qed.

(** ** Names *)
Definition j0 : bool * N * N := (true, 7, 9).
Definition id_ : bytes := [105; 100].
Definition title_ : bytes := [116].
Definition svg : option bytes := Some [115; 118; 103].
Definition bv : bytes := [98].
Definition av : bytes := [97].

(** ** Dictionaries *)
Fixpoint wplay (l : list aop) (W : world) : world := match l with [] => W | o :: l => wplay l (writes_dict o W) end.
Definition by_nameb (o : aop) : bool := match o with ASetNode _ _ _ | ARemoveNode _ _ _ | ASetValue _ _ => false | _ => true end.
Lemma by_nameb_ok : forall o, by_nameb o = true -> by_name o.
Proof. intros []; simpl; auto; discriminate. Qed.
Section Played.
  Variables (P : world -> aop -> Prop) (Pb : world -> aop -> bool).
  Hypothesis Pb_ok : forall W o, Pb W o = true -> P W o.
  Fixpoint dplayb (l : list aop) (s : ast) (Q : attrs) (W : world) : bool :=
    match l with
    | [] => true
    | o :: l => by_nameb o && Pb W o && legalb Q o && match aexec o s with Ok _ s' | Exc _ s' => dplayb l s' (snd (qmeans o Q)) (writes_dict o W) | Bad _ => false end
    end.
  Lemma dplay_reach : forall l k s Q W, dreach P k s Q W -> dplayb l s Q W = true ->
    exists s' Q', aplay l s Q = Some (s', Q') /\ dreach P (k + length l) s' Q' (wplay l W).
  Proof.
    induction l as [|o l IH]; intros k s Q W A H; cbn [dplayb aplay wplay] in *.
    - exists s, Q. rewrite Nat.add_0_r. auto.
    - apply andb_prop in H as [H H4]. apply andb_prop in H as [H H3]. apply andb_prop in H as [H1 H2]. rewrite H3. cbn [length]. rewrite <- Nat.add_succ_comm.
      destruct (aexec o s) as [r s'|x s'|b] eqn:E; [| |discriminate]; apply IH; auto; [eapply dr_ok|eapply dr_exc]; eauto using by_nameb_ok, legalb_ok.
  Qed.
  Lemma dplayed : forall l, dplayb l no_ast no_attrs no_world = true -> dreach P (length l) (astate l) (ameans l) (wplay l no_world).
  Proof.
    intros l H. destruct (dplay_reach l 0 _ _ _ (dr_start P) H) as (s' & Q' & E & A). unfold astate, ameans. rewrite E. exact A.
  Qed.
End Played.
Definition plainb (_ : world) (o : aop) : bool := match asks o with Some (_, (Some _, _)) => false | _ => true end.
Lemma plainb_ok : forall W o, plainb W o = true -> plain W o.
Proof. unfold plainb, plain. intros W o H e ns k E. rewrite E in H. destruct ns; congruence. Qed.
Definition has_namespaced (d : dict) (k : bytes) : bool := existsb (fun p => match fst p with (Some _, n) => bytes_eqb n k | _ => false end) d.
Definition unambiguousb (W : world) (o : aop) : bool :=
  match asks o with Some (e, (None, k)) => match w_el W e with Some (_, d) => negb (has_namespaced d k) | None => true end | _ => true end.
Lemma unambiguousb_ok : forall W o, unambiguousb W o = true -> unambiguous W o.
Proof.
  unfold unambiguousb, unambiguous. intros W o H e k ro d A WE u. rewrite A, WE in H. apply negb_true_iff in H.
  unfold lookup. destruct (find (fun p => key_eqb (fst p) (Some u, k)) d) as [p|] eqn:F; auto. exfalso. apply find_some in F as [I K].
  assert (T : has_namespaced d k = true); [|congruence]. apply existsb_exists. exists p. split; auto. destruct p as [[[w|] n] v]; unfold key_eqb in K; cbn in K; [|discriminate].
  apply andb_prop in K as [_ K]. exact K.
Qed.
Definition class_onceb (W : world) (o : aop) : bool :=
  unambiguousb W o && match o with
                      | ASet _ e None k _ => match w_el W e with Some (_, d) => negb (bytes_eqb k s_class) || match lookup d class_key with None => true | Some _ => false end | None => true end
                      | _ => true
                      end.
Lemma class_onceb_ok : forall W o, class_onceb W o = true -> class_once W o.
Proof.
  unfold class_onceb, class_once. intros W o H. apply andb_prop in H as [H1 H2]. split; [apply unambiguousb_ok; auto|].
  destruct o; auto. destruct ns; auto. intros ro d WE ->. rewrite WE in H2. destruct (lookup d class_key); auto. discriminate.
Qed.

(** Two elements; the first has three attributes, of which one was replaced, one
    removed and set again. *)
Definition form : list aop :=
  [ANew 0 false false; ANew 0 true false; ASet j0 0 None id_ (Some av); ASet j0 0 None title_ (Some bv); ASet j0 0 None s_class (Some (av ++ 32 :: bv));
   ASet j0 0 None title_ (Some av); ARemove 0 None id_; ASet j0 0 None id_ None; AItem 0 1].
Definition form_dict : dict := [((None, title_), av); ((None, s_class), av ++ 32 :: bv); ((None, id_), [])].
Lemma form_plain : dreach plain (length form) (astate form) (ameans form) (wplay form no_world).
Proof. apply (dplayed plain plainb plainb_ok). vm_compute. reflexivity. Qed.
Lemma form_bound : N.of_nat (length form) < 4294967279.
Proof. vm_compute. reflexivity. Qed.
Lemma form_el : w_el (wplay form no_world) 0%nat = Some (false, form_dict) /\ w_el (wplay form no_world) 1%nat = Some (true, []).
Proof. split; vm_compute; reflexivity. Qed.
Lemma form_names : a_name id_ /\ attribute_name_ok id_ = true.
Proof. split; [apply ascii_name|]; vm_compute; reflexivity. Qed.
Lemma form_case : dreach plain (length form) (astate form) (ameans form) (wplay form no_world) /\ N.of_nat (length form) < 4294967279 /\
  w_el (wplay form no_world) 0%nat = Some (false, form_dict) /\ w_el (wplay form no_world) 1%nat = Some (true, []) /\ a_name id_ /\ attribute_name_ok id_ = true /\
  answer (aexec (AGet 0 None title_) (astate form)) = Some (RVal (Some av)) /\ answer (aexec (AHas 0 None [120]) (astate form)) = Some (RBool false) /\
  answer (aexec (ALength 0) (astate form)) = Some (RNum 3).
Proof.
  split; [exact form_plain|]. split; [exact form_bound|]. split; [apply form_el|]. split; [apply form_el|]. split; [apply form_names|]. split; [apply form_names|].
  repeat split; vm_compute; reflexivity.
Qed.

(** With namespaces: the same local name twice. *)
Definition drawing : list aop :=
  [ANew 0 false false; ASet j0 0 svg id_ (Some av); ASet j0 0 (Some [120]) id_ (Some bv); ASet j0 0 None title_ (Some bv); ASet j0 0 svg id_ (Some bv); ARemove 0 (Some [120]) title_].
Lemma drawing_case : dreach unambiguous (length drawing) (astate drawing) (ameans drawing) (wplay drawing no_world) /\ N.of_nat (length drawing) < 4294967279 /\
  w_el (wplay drawing no_world) 0%nat = Some (false, [((svg, id_), bv); ((Some [120], id_), bv); ((None, title_), bv)]) /\
  unambiguous (wplay drawing no_world) (AGet 0 None title_).
Proof.
  split; [apply (dplayed unambiguous unambiguousb unambiguousb_ok); vm_compute; reflexivity|]. split; [vm_compute; reflexivity|].
  split; [vm_compute; reflexivity|]. apply unambiguousb_ok. vm_compute. reflexivity.
Qed.

(** A lookup without a namespace finds the namespaced attribute, and a set without
    a namespace overwrites it. *)
Definition one_ns : list aop := [ANew 0 false false; ASet j0 0 svg id_ (Some av)].
Lemma null_sees : exists k s Q e ns n v, areach k s Q /\ answer (aexec (AHas e ns n) s) = Some (RBool true) /\ ns <> None /\
  (* never set without a namespace *)
  (exists W, dreach unambiguous k s Q W /\ exists ro d, w_el W e = Some (ro, d) /\ lookup d (None, n) = None) /\
  answer (aexec (AGet e None n) s) = Some (RVal (Some v)) /\ answer (aexec (AHas e None n) s) = Some (RBool true).
Proof.
  exists (length one_ns), (astate one_ns), (ameans one_ns), 0%nat, svg, id_, av.
  split; [apply played_areach; vm_compute; reflexivity|]. split; [vm_compute; reflexivity|]. split; [discriminate|].
  split; [|split; vm_compute; reflexivity]. exists (wplay one_ns no_world).
  split; [apply (dplayed unambiguous unambiguousb unambiguousb_ok); vm_compute; reflexivity|]. exists false, [((svg, id_), av)]. split; vm_compute; reflexivity.
Qed.
Lemma null_overwrites : exists k s Q j e ns n v w s', areach k s Q /\ ns <> None /\ v <> w /\
  answer (aexec (AGet e ns n) s) = Some (RVal (Some v)) /\
  aexec (ASet j e None n (Some w)) s = Ok RDone s' /\
  answer (aexec (AGet e ns n) s') = Some (RVal (Some w)).
Proof.
  exists (length one_ns), (astate one_ns), (ameans one_ns), j0, 0%nat, svg, id_, av, bv.
  assert (E : exists s', aexec (ASet j0 0 None id_ (Some bv)) (astate one_ns) = Ok RDone s' /\ answer (aexec (AGet 0 svg id_) s') = Some (RVal (Some bv))).
  { destruct (aexec (ASet j0 0 None id_ (Some bv)) (astate one_ns)) as [r s'|x s'|b] eqn:E.
    - exists s'. assert (H : match aexec (ASet j0 0 None id_ (Some bv)) (astate one_ns) with Ok RDone s' => answer (aexec (AGet 0 svg id_) s') | _ => None end = Some (RVal (Some bv))) by (vm_compute; reflexivity).
      rewrite E in H. destruct r; try discriminate. auto.
    - exfalso. assert (H : match aexec (ASet j0 0 None id_ (Some bv)) (astate one_ns) with Exc _ _ => false | _ => true end = true) by (vm_compute; reflexivity). rewrite E in H. discriminate.
    - exfalso. assert (H : match aexec (ASet j0 0 None id_ (Some bv)) (astate one_ns) with Bad _ => false | _ => true end = true) by (vm_compute; reflexivity). rewrite E in H. discriminate. }
  destruct E as (s' & E1 & E2). exists s'. split; [apply played_areach; vm_compute; reflexivity|].
  split; [discriminate|]. split; [discriminate|]. split; [vm_compute; reflexivity|]. auto.
Qed.
(** A prefixed attribute that is on the element cannot be taken off. *)
Definition prefixed : list aop := [ANew 0 false false; ACreate j0 0 id_ svg (Some [112]); ASetNode 0 svg 0].
Lemma prefixed_stays : exists k s Q e ns a, areach k s Q /\ alegal Q (ARemoveNode e ns a) /\
  answer (aexec (AItem e 0) s) = Some (RAttr (Some a)) /\ answer (aexec (ARemoveNode e ns a) s) = Some (RErr NOT_FOUND_ERR).
Proof.
  exists (length prefixed), (astate prefixed), (ameans prefixed), 0%nat, svg, 0%nat. split; [apply played_areach; vm_compute; reflexivity|].
  split; [apply legalb_ok; vm_compute; reflexivity|]. split; vm_compute; reflexivity.
Qed.

(** setAttributeNode in place of the first attribute. *)
Definition two : list aop := [ANew 0 false false; ASet j0 0 None id_ (Some av); ACreate j0 0 id_ None None].
Lemma replace_first : exists k s Q e a, areach k s Q /\ an_element Q e /\ owned Q a /\ aexec (ASetNode e None a) s = Bad UseAfterFree.
Proof.
  exists (length two), (astate two), (ameans two), 0%nat, 1%nat.
  split; [apply played_areach; vm_compute; reflexivity|]. split; [apply elb_ok; vm_compute; reflexivity|]. split; [apply ownedb_ok; vm_compute; reflexivity|].
  vm_compute. reflexivity.
Qed.
(** Setting the value of an attribute that no element has. *)
Lemma unattached : exists k s Q a v, areach k s Q /\ owned Q a /\ aexec (ASetValue a v) s = Bad NullDeref.
Proof.
  exists (length two), (astate two), (ameans two), 1%nat, (Some av). split; [apply played_areach; vm_compute; reflexivity|].
  split; [apply ownedb_ok; vm_compute; reflexivity|]. vm_compute. reflexivity.
Qed.

(** ** Class names *)
Definition classy : list aop :=
  [ANew 0 false false; ANew 0 false true; ASet j0 0 None s_class (Some (32 :: av ++ 32 :: 32 :: bv)); ASet j0 1 None s_class (Some [65; 98]); ARemove 0 None s_class;
   ASet j0 0 None s_class (Some (av ++ 32 :: bv))].
Lemma classy_case : dreach class_once (length classy) (astate classy) (ameans classy) (wplay classy no_world) /\ N.of_nat (length classy) < 4294967280 /\
  w_el (wplay classy no_world) 0%nat = Some (false, [(class_key, av ++ 32 :: bv)]) /\ w_el (wplay classy no_world) 1%nat = Some (false, [(class_key, [65; 98])]) /\
  spaced (av ++ 32 :: bv) /\ word av (av ++ 32 :: bv) /\ ~ word (av ++ 32 :: bv) (av ++ 32 :: bv) /\
  answer (aexec (AClass 0 bv) (astate classy)) = Some (RBool true) /\ answer (aexec (AClass 1 [97; 98]) (astate classy)) = Some (RBool true) /\
  answer (aexec (AClass 1 bv) (astate classy)) = Some (RBool false).
Proof.
  split; [apply (dplayed class_once class_onceb class_onceb_ok); vm_compute; reflexivity|]. split; [vm_compute; reflexivity|].
  split; [vm_compute; reflexivity|]. split; [vm_compute; reflexivity|].
  assert (SP : spaced (av ++ 32 :: bv)) by (repeat (apply Forall_cons; [split; [discriminate|vm_compute; congruence]|]); apply Forall_nil).
  split; auto. split; [apply (split_words (av ++ 32 :: bv) []); [auto|reflexivity|vm_compute; auto]|].
  split; [intros (_ & H & _); vm_compute in H; discriminate|]. repeat split; vm_compute; reflexivity.
Qed.
Definition stale : list aop := [ANew 0 false false; ASet j0 0 None s_class (Some av); ASet j0 0 None s_class (Some bv)].
Lemma stale_class : exists k s Q e v, areach k s Q /\ answer (aexec (AGet e None s_class) s) = Some (RVal (Some v)) /\
  (exists c, word c v /\ answer (aexec (AClass e c) s) = Some (RBool false)) /\ (exists c, ~ word c v /\ answer (aexec (AClass e c) s) = Some (RBool true)).
Proof.
  exists (length stale), (astate stale), (ameans stale), 0%nat, bv. split; [apply played_areach; vm_compute; reflexivity|]. split; [vm_compute; reflexivity|].
  assert (SP : spaced bv) by (repeat (apply Forall_cons; [split; [discriminate|vm_compute; congruence]|]); apply Forall_nil).
  split.
  - exists bv. split; [apply (split_words bv []); [auto|reflexivity|vm_compute; auto]|vm_compute; reflexivity].
  - exists av. split; [|vm_compute; reflexivity]. intros H. apply (split_words bv []) in H; [|auto|reflexivity]. vm_compute in H. destruct H as [H|[]]. discriminate.
Qed.
Definition tabbed : list aop := [ANew 0 false false; ASet j0 0 None s_class (Some (av ++ 9 :: bv))].
Lemma tab_class : exists k s Q W e v c, dreach class_once k s Q W /\ answer (aexec (AGet e None s_class) s) = Some (RVal (Some v)) /\ word c v /\ answer (aexec (AClass e c) s) = Some (RBool false).
Proof.
  exists (length tabbed), (astate tabbed), (ameans tabbed), (wplay tabbed no_world), 0%nat, (av ++ 9 :: bv), bv.
  split; [apply (dplayed class_once class_onceb class_onceb_ok); vm_compute; reflexivity|]. split; [vm_compute; reflexivity|]. split; [|vm_compute; reflexivity].
  split; [discriminate|]. split; [reflexivity|]. exists (av ++ [9]), []. split; auto. split; auto. right. exists av, 9. auto.
Qed.

(** ** Typed values *)
Definition typed_ops : list aop := [ANew 0 false false; ACreate j0 0 id_ None None; ASetNode 0 None 0].
Definition run_to (o : aop) (s : ast) : ast := match aexec o s with Ok _ s' | Exc _ s' => s' | Bad _ => s end.
Lemma run_ok_to : forall o s r, match aexec o s with Ok r _ => Some r | _ => None end = Some r -> aexec o s = Ok r (run_to o s).
Proof. intros o s r. unfold run_to. destruct (aexec o s); try discriminate. intros E; inversion E; auto. Qed.
Lemma run_exc_to : forall o s e, match aexec o s with Exc e _ => Some e | _ => None end = Some e -> aexec o s = Exc e (run_to o s).
Proof. intros o s r. unfold run_to. destruct (aexec o s); try discriminate. intros E; inversion E; auto. Qed.
Definition ts0 := astate typed_ops.
Definition tq0 := ameans typed_ops.
Definition ts1 := run_to (tset 0 (TShort 5)) ts0.
Definition tq1 := snd (qmeans (tset 0 (TShort 5)) tq0).
Definition ts2 := run_to (tset 0 (TBool true)) ts1.
Definition tq2 := snd (qmeans (tset 0 (TBool true)) tq1).
Definition ts3 := run_to (ASet j0 0 None id_ (Some av)) ts1.
Definition tq3 := snd (qmeans (ASet j0 0 None id_ (Some av)) tq1).
Lemma typed_case : areach 3 ts0 tq0 /\ owned tq0 0%nat /\ aexec (tset 0 (TShort 5)) ts0 = Ok RDone ts1 /\
  further (other_than_tset 0) 4 ts1 tq1 5 ts3 tq3 /\ owned tq3 0%nat /\
  aexec (tset 0 (TBool true)) ts1 = Exc ATTR_WRONG_TYPE_ERR ts2 /\
  answer (aexec (AGetShort 0) ts3) = Some (RNum 5) /\ answer (aexec (AGetBool 0) ts3) = Some mismatch.
Proof.
  split; [apply (played_areach typed_ops); vm_compute; reflexivity|]. split; [apply ownedb_ok; vm_compute; reflexivity|].
  split; [apply run_ok_to; vm_compute; reflexivity|].
  split. { eapply fu_call with (o := ASet j0 0 None id_ (Some av)) (r := RDone) (s1 := ts3); [intros []; discriminate| |right; exists ATTR_WRONG_TYPE_ERR; apply run_exc_to; vm_compute; reflexivity|apply fu_none].
    apply legalb_ok. vm_compute. reflexivity. }
  split; [apply ownedb_ok; vm_compute; reflexivity|]. split; [apply run_exc_to; vm_compute; reflexivity|]. split; vm_compute; reflexivity.
Qed.
Definition fresh_ops : list aop := [ANew 0 false false].
Definition fs0 := astate fresh_ops.
Definition fq0 := ameans fresh_ops.
Definition fo := ACreate j0 0 id_ None None.
Definition fs1 := run_to fo fs0.
Definition fq1 := snd (qmeans fo fq0).
Definition fs2 := run_to (ASetNode 0 None 0) fs1.
Definition fq2 := snd (qmeans (ASetNode 0 None 0) fq1).
Lemma fresh_case : areach 1 fs0 fq0 /\ aexec fo fs0 = Ok (RAttr (Some 0%nat)) fs1 /\ further (sets_nothing 0) 2 fs1 fq1 3 fs2 fq2 /\ owned fq2 0%nat.
Proof.
  split; [apply (played_areach fresh_ops); vm_compute; reflexivity|]. split; [apply run_ok_to; vm_compute; reflexivity|].
  split; [|apply ownedb_ok; vm_compute; reflexivity].
  eapply fu_call with (o := ASetNode 0 None 0) (r := RAttr None) (s1 := fs2); [split; [intros []; discriminate|exact I]|apply legalb_ok; vm_compute; reflexivity|left; apply run_ok_to; vm_compute; reflexivity|apply fu_none].
Qed.
(** The string view of a typed attribute is empty. *)
Lemma string_view : exists k s Q a n, areach k s Q /\ owned Q a /\ answer (aexec (AGetShort a) s) = Some (RNum n) /\ answer (aexec (AValue a) s) = Some (RVal (Some [])).
Proof.
  exists (length (typed_ops ++ [ASetShort 0 5])), (astate (typed_ops ++ [ASetShort 0 5])), (ameans (typed_ops ++ [ASetShort 0 5])), 0%nat, 5.
  split; [apply played_areach; vm_compute; reflexivity|]. split; [apply ownedb_ok; vm_compute; reflexivity|]. split; vm_compute; reflexivity.
Qed.
