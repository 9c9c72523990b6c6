(** Pages, by history. *)
From Coq Require Import List Arith NArith ZArith Bool Lia.
From Verif Require Import Base HeapModel HeapSpec HeapInv HeapExec HistModel HistProofs TreeSpec TreeProofs TreeProofs4 TreeWitness WalkModel WalkSpec WalkProofs WalkReach WalkLists WalkFinds WalkWitness ContentWitness
  HtmlModel HtmlSpec HtmlBase HtmlSelect HtmlTables HtmlReach HtmlWitness OptionWitness DocModel DocSpec DocProofs.
Import ListNotations.

(** ** From computation to the specification *)
Definition rootb (s : st) (d : id) : option (option id) :=
  option_map (find (fun i => match s_heap s i with Some n => element_node n | None => false end)) (kids s d).
Lemma element_type : forall s i, match s_heap s i with Some n => element_node n | None => false end = true <-> type_of (s_heap s) i = Some ELEMENT.
Proof.
  intros s i. unfold type_of. destruct (s_heap s i) as [n|]; cbn [option_map]; [|split; discriminate]. rewrite element_iff. split; congruence.
Qed.
Lemma rootb_ok : forall s d o, rootb s d = Some o -> root_element (s_heap s) d o.
Proof.
  intros s d o H. unfold rootb in H. destruct (kids s d) as [l|] eqn:K; [|discriminate]. cbn [option_map] in H. injection H as <-. exists l. split; [apply kids_ok; auto|]. clear K.
  induction l as [|i l IH]; [constructor|]. cbn [find]. destruct (match s_heap s i with Some n => element_node n | None => false end) eqn:E.
  - constructor. apply element_type. exact E.
  - constructor; auto. intros T. apply element_type in T. congruence.
Qed.
Definition membersb (c : coll) (s : st) (d : id) (k : list id) : bool :=
  match rootb s d with
  | Some (Some r) =>
      filledb s r && match ordn 20 s r with
                     | Some l => (N.of_nat (length l) <? two32)%N &&
                         if list_eq_dec Nat.eq_dec (filter (fun i => match s_heap s i with Some n => element_node n | None => false end && member c s i) l) k then true else false
                     | None => false
                     end
  | _ => false
  end.
Lemma membersb_ok : forall c s d k, linked s -> membersb c s d k = true -> members c (s_heap s) d k.
Proof.
  intros c s d k L H. unfold membersb in H. destruct (rootb s d) as [[r|]|] eqn:R; try discriminate. apply andb_prop in H as [H1 H2].
  destruct (ordn 20 s r) as [l|] eqn:O; [|discriminate]. apply andb_prop in H2 as [H2 H3]. destruct (list_eq_dec Nat.eq_dec _ k) as [E|]; [|discriminate].
  exists r, l. split; [apply rootb_ok; auto|]. split; [apply filledb_ok; auto|]. split; [eapply ordn_order; eauto|]. split; [apply N.ltb_lt; auto|].
  rewrite <- E. apply picks_sel. intros x. rewrite andb_true_iff, element_type. apply member_iff. exact L.
Qed.
Definition belowb (s : st) (d : id) (name : bytes) (k : list id) : bool :=
  match s_heap s d with Some n => ntype_eqb (n_type n) DOCUMENT | None => false end &&
  match ordn 20 s d with
  | Some (x :: ds) => Nat.eqb x d && (N.of_nat (length ds) + 2 <? two32)%N && if list_eq_dec Nat.eq_dec (filter (tagb true name s) ds) k then true else false
  | _ => false
  end.
Lemma belowb_ok : forall s d name k, name <> [] -> name <> [42%N] -> linked s -> belowb s d name k = true -> below (s_heap s) d name k.
Proof.
  intros s d name k N1 N2 L H. unfold belowb in H. apply andb_prop in H as [H1 H2]. destruct (s_heap s d) as [n|] eqn:E; [|discriminate]. apply ntype_eqb_eq in H1.
  destruct (ordn 20 s d) as [[|x ds]|] eqn:O; try discriminate. apply andb_prop in H2 as [H2 H3]. apply andb_prop in H2 as [H2 H4]. apply Nat.eqb_eq in H2. subst x.
  destruct (list_eq_dec Nat.eq_dec _ k) as [K|]; [|discriminate]. apply N.ltb_lt in H4. apply ordn_order in O.
  split; [unfold type_of; rewrite E; cbn; congruence|]. split.
  - intros l O'. pose proof (order_det s L _ _ _ O O') as Q. inversion Q; subst. lia.
  - exists ds. split; auto. rewrite <- K. apply picks_sel. intros i. apply tagb_ok; auto.
Qed.

(** ** A page
    <HTML><HEAD><TITLE>hi</TITLE></HEAD><BODY><IMG><A href><FORM></FORM></A><A name>
    <AREA href></BODY></HTML>: the elements 1, 2, 3, 5, 6, 7, 9, 10 and 12, the text 4. *)
Definition s_HEAD : bytes := [72; 69; 65; 68]%N.
Definition attr_named (n : bytes) : op := OCreate 0 ATTRIBUTE (Some n) None None None.
Definition site_ops : list op :=
  [ONewDocument; named s_HTML; named s_HEAD; named s_TITLE; typed [104; 105]%N; named s_BODY; named s_IMG; named s_A; attr_named s_href; named s_FORM;
   named s_A; attr_named s_name; named s_AREA; attr_named s_href;
   OAppend 0 1; OAppend 1 2; OAppend 2 3; OAppend 3 4; OAppend 1 5; OAppend 5 6; OAppend 5 7; OSetAttribute 7 8; OAppend 7 9; OAppend 5 10; OSetAttribute 10 11;
   OAppend 5 12; OSetAttribute 12 13].
Definition site : st := fst (played site_ops).
Definition site_client : client := snd (played site_ops).
Lemma site_reach : reach 27 site site_client.
Proof. apply (played_reach site_ops); [vm_compute; reflexivity|unfold short; vm_compute; reflexivity]. Qed.
Lemma site_brief : briefly 27.
Proof. unfold briefly. vm_compute. reflexivity. Qed.
Lemma site_linked : linked site.
Proof. apply (reach_linked _ _ _ site_reach). unfold short. vm_compute. reflexivity. Qed.
Lemma site_titles : below (s_heap site) 0 s_TITLE [3].
Proof. apply belowb_ok; [discriminate|discriminate|exact site_linked|vm_compute; reflexivity]. Qed.
Lemma site_bodies : below (s_heap site) 0 s_BODY [5] /\ below (s_heap site) 0 s_FRAMESET [].
Proof. split; (apply belowb_ok; [discriminate|discriminate|exact site_linked|vm_compute; reflexivity]). Qed.
Lemma site_members : members IMAGES (s_heap site) 0 [6] /\ members LINKS (s_heap site) 0 [7; 12] /\ members FORMS (s_heap site) 0 [9] /\ members ANCHORS (s_heap site) 0 [10].
Proof. split; [|split; [|split]]; (apply membersb_ok; [exact site_linked|vm_compute; reflexivity]). Qed.
Lemma texts_one : forall s i b, match s_heap s i with Some n => match n_type n, n_value n with TEXT, Some v => if list_eq_dec N.eq_dec v b then true else false | _, _ => false end | None => false end = true ->
  texts (s_heap s) [i] [b].
Proof.
  intros s i b H. destruct (s_heap s i) as [n|] eqn:E; [|discriminate]. destruct (n_type n) eqn:T; try discriminate. destruct (n_value n) as [v|] eqn:V; [|discriminate].
  destruct (list_eq_dec N.eq_dec v b) as [->|]; [|discriminate]. eapply tx_text; eauto. constructor.
Qed.
Lemma site_text : order (s_heap site) 3 [3; 4] /\ texts (s_heap site) [4] [[104; 105]%N].
Proof. split; [apply (ordn_order 10); vm_compute; reflexivity|apply texts_one; vm_compute; reflexivity]. Qed.

(** ** An empty document *)
Definition blank_ops : list op := [ONewDocument].
Definition blank : st := fst (played blank_ops).
Definition blank_client : client := snd (played blank_ops).
Lemma blank_reach : reach 1 blank blank_client.
Proof. apply (played_reach blank_ops); [vm_compute; reflexivity|unfold short; vm_compute; reflexivity]. Qed.
Lemma blank_brief : briefly 1.
Proof. unfold briefly. vm_compute. reflexivity. Qed.
Lemma blank_linked : linked blank.
Proof. apply (reach_linked _ _ _ blank_reach). unfold short. vm_compute. reflexivity. Qed.
Lemma blank_below : below (s_heap blank) 0 s_TITLE [] /\ below (s_heap blank) 0 s_BODY [] /\ below (s_heap blank) 0 s_FRAMESET [].
Proof. split; [|split]; (apply belowb_ok; [discriminate|discriminate|exact blank_linked|vm_compute; reflexivity]). Qed.
Lemma blank_root : root_element (s_heap blank) 0 None.
Proof. apply rootb_ok. vm_compute. reflexivity. Qed.

(** ** A body set and released *)
Definition held_ops : list op := [ONewDocument; named s_BODY].
Definition held : st := fst (played held_ops).
Definition held_client : client := snd (played held_ops).
Lemma held_reach : reach 2 held held_client.
Proof. apply (played_reach held_ops); [vm_compute; reflexivity|unfold short; vm_compute; reflexivity]. Qed.
Definition gone_ops : list op := held_ops ++ [OUnref 1].
Definition gone : st := fst (played gone_ops).
Definition gone_client : client := snd (played gone_ops).
Lemma gone_reach : reach 3 gone gone_client.
Proof. apply (played_reach gone_ops); [vm_compute; reflexivity|unfold short; vm_compute; reflexivity]. Qed.
Lemma body_gone : exists j s g j' s' g' x d b before, reach j s g /\ briefly j' /\ type_of (s_heap s) b = Some ELEMENT /\ reach j' s' g' /\ x = set_body (Some b) new_fields /\
  ~ live (s_heap s') b /\ get_body x d before s' = Ok (Some b) s'.
Proof.
  exists 2, held, held_client, 3, gone, gone_client, (set_body (Some 1) new_fields), 0, 1, None. split; [exact held_reach|]. split; [unfold briefly; vm_compute; reflexivity|].
  split; [vm_compute; reflexivity|]. split; [exact gone_reach|]. split; [reflexivity|]. split; [|reflexivity].
  rewrite <- livesb_ok. vm_compute. discriminate.
Qed.

(** ** Applets *)
Definition app_ops : list op := [ONewDocument; named s_HTML; named s_APPLET; OAppend 0 1; OAppend 1 2].
Definition app_st : st := fst (played app_ops).
Definition app_client : client := snd (played app_ops).
Lemma app_reach : reach 5 app_st app_client.
Proof. apply (played_reach app_ops); [vm_compute; reflexivity|unfold short; vm_compute; reflexivity]. Qed.
Lemma app_missed : exists j s g d a s', reach j s g /\ briefly j /\ below (s_heap s) d s_APPLET [a] /\ applets_length d s = Ok 0%N s'.
Proof.
  destruct (out_ok (applets_length 0) app_st 0%N) as (s' & E); [vm_compute; reflexivity|].
  exists 5, app_st, app_client, 0, 2, s'. split; [exact app_reach|]. split; [unfold briefly; vm_compute; reflexivity|]. split; [|exact E].
  apply belowb_ok; [discriminate|discriminate| |vm_compute; reflexivity]. apply (reach_linked _ _ _ app_reach). unfold short. vm_compute. reflexivity.
Qed.
Definition obj_ops : list op := [ONewDocument; named s_HTML; named s_OBJECT; named s_DIV; OAppend 0 1; OAppend 1 2; OAppend 1 3].
Definition obj_st : st := fst (played obj_ops).
Definition obj_client : client := snd (played obj_ops).
Lemma obj_reach : reach 7 obj_st obj_client.
Proof. apply (played_reach obj_ops); [vm_compute; reflexivity|unfold short; vm_compute; reflexivity]. Qed.
Lemma obj_stuck : exists j s g d a, reach j s g /\ briefly j /\ below (s_heap s) d s_OBJECT [a] /\ applets_length d s = Bad NullDeref.
Proof.
  exists 7, obj_st, obj_client, 0, 2. split; [exact obj_reach|]. split; [unfold briefly; vm_compute; reflexivity|]. split; [|apply val_bad; vm_compute; reflexivity].
  apply belowb_ok; [discriminate|discriminate| |vm_compute; reflexivity]. apply (reach_linked _ _ _ obj_reach). unfold short. vm_compute. reflexivity.
Qed.

(** ** Cases *)
Lemma title_hidden : exists j s g x d t i v u, reach j s g /\ briefly j /\ below (s_heap s) d s_TITLE [t] /\ order (s_heap s) t [t; i] /\ texts (s_heap s) [i] [v] /\
  x = set_title (Some u) new_fields /\ u <> v /\ get_title x d s = Ok (Some u) s.
Proof.
  exists 27, site, site_client, (set_title (Some [120]%N) new_fields), 0, 3, 4, [104; 105]%N, [120]%N. split; [exact site_reach|]. split; [exact site_brief|]. split; [exact site_titles|].
  split; [apply site_text|]. split; [apply site_text|]. split; [reflexivity|]. split; [discriminate|reflexivity].
Qed.
Lemma body_left : exists j s g d, reach j s g /\ briefly j /\ below (s_heap s) d s_BODY [] /\ below (s_heap s) d s_FRAMESET [] /\ forall before, get_body new_fields d before s = Ok before s.
Proof.
  exists 1, blank, blank_client, 0. split; [exact blank_reach|]. split; [exact blank_brief|]. split; [apply blank_below|]. split; [apply blank_below|]. intros before.
  exact (reach_body _ _ _ blank_reach blank_brief new_fields 0 [] [] before eq_refl (proj1 (proj2 blank_below)) (proj2 (proj2 blank_below))).
Qed.
