(** A page with a form, by history. *)
From Coq Require Import List Arith NArith ZArith Bool Lia.
From Verif Require Import Base HeapModel HeapSpec HeapInv HeapExec HistModel HistProofs TreeSpec TreeProofs TreeProofs4 TreeWitness WalkModel WalkSpec WalkProofs WalkReach WalkLists WalkFinds WalkWitness ContentWitness
  HtmlModel HtmlSpec HtmlBase HtmlSelect HtmlTables HtmlReach HtmlWitness OptionWitness DocModel DocSpec DocProofs DocWitness FormModel FormSpec FormProofs.
Import ListNotations.

(** ** From computation to the specification *)
Definition controlsb (p : pointers) (s : st) (f d : id) (k : list id) : bool :=
  match ordn 20 s d with
  | Some (y :: x :: l) => Nat.eqb y d && (N.of_nat (length (y :: x :: l)) <? two32)%N &&
      if list_eq_dec Nat.eq_dec (filter (fun i => match s_heap s i with Some n => element_node n | None => false end && form_control p f s i) (y :: x :: l)) k then true else false
  | _ => false
  end.
Lemma controlsb_ok : forall p s f d k, controlsb p s f d k = true -> controls p (s_heap s) f d k.
Proof.
  intros p s f d k H. unfold controlsb in H. destruct (ordn 20 s d) as [[|y [|x l]]|] eqn:O; try discriminate. apply andb_prop in H as [H1 H3]. apply andb_prop in H1 as [H1 H2].
  apply Nat.eqb_eq in H1. subst y. destruct (list_eq_dec Nat.eq_dec _ k) as [E|]; [|discriminate]. exists x, l. split; [eapply ordn_order; eauto|]. split; [apply N.ltb_lt; auto|].
  rewrite <- E. apply picks_sel. intros i. rewrite andb_true_iff, element_type. apply form_control_iff.
Qed.
Lemma tag_found : forall s (name : bytes) i, name <> [] -> name <> [42%N] -> match s_heap s i with Some n => element_node n && caseless_isequal (n_name n) (Some name) | None => false end = true -> tag (s_heap s) name i.
Proof. intros s name i N1 N2 H. destruct (s_heap s i) as [n|] eqn:E; [|discriminate]. apply (tag_iff s name i n); auto. Qed.
Lemma tag_missed : forall s (name : bytes) i, name <> [] -> name <> [42%N] -> match s_heap s i with Some n => element_node n && caseless_isequal (n_name n) (Some name) | None => false end = false -> ~ tag (s_heap s) name i.
Proof.
  intros s name i N1 N2 H T. destruct (s_heap s i) as [n|] eqn:E; [|destruct T as (m & M & _); congruence]. apply (tag_iff s name i n N1 N2 E) in T. congruence.
Qed.
Fixpoint upb (fuel : nat) (s : st) (name : bytes) (c : option id) : option (option id) :=
  match c with
  | None => Some None
  | Some i => match fuel with
              | O => None
              | S f => if match s_heap s i with Some n => element_node n && caseless_isequal (n_name n) (Some name) | None => false end then Some (Some i)
                       else upb f s name (parent_of (s_heap s) i)
              end
  end.
Lemma upb_ok : forall s (name : bytes), name <> [] -> name <> [42%N] -> forall f c o, upb f s name c = Some o -> closest (s_heap s) name c o.
Proof.
  intros s name N1 N2. induction f as [|f IH]; intros [i|] o H; cbn in H; try discriminate; try (injection H as <-; constructor).
  destruct (match s_heap s i with Some n => element_node n && caseless_isequal (n_name n) (Some name) | None => false end) eqn:E.
  - injection H as <-. constructor. apply tag_found; auto.
  - apply cl_up; [apply tag_missed; auto|apply IH; exact H].
Qed.

(** ** The page
    <HTML><FORM><FIELDSET><LEGEND></LEGEND><INPUT></FIELDSET><SELECT><OPTION></OPTION></SELECT>
    <LABEL></LABEL></FORM><BUTTON></BUTTON></HTML>: the elements 1 to 9. *)
Definition s_LEGEND : bytes := [76; 69; 71; 69; 78; 68]%N.
Definition s_LABEL : bytes := [76; 65; 66; 69; 76]%N.
Definition page_ops : list op :=
  [ONewDocument; named s_HTML; named s_FORM; named s_FIELDSET; named s_LEGEND; named s_INPUT; named s_SELECT; named s_OPTION; named s_LABEL; named s_BUTTON;
   OAppend 0 1; OAppend 1 2; OAppend 2 3; OAppend 3 4; OAppend 3 5; OAppend 2 6; OAppend 6 7; OAppend 2 8; OAppend 1 9].
Definition page : st := fst (played page_ops).
Definition page_client : client := snd (played page_ops).
Lemma page_reach : reach 19 page page_client.
Proof. apply (played_reach page_ops); [vm_compute; reflexivity|unfold short; vm_compute; reflexivity]. Qed.
Lemma page_brief : briefly 19.
Proof. unfold briefly. vm_compute. reflexivity. Qed.
(** What the parser makes of it. *)
Definition page_forms : pointers := associate 2 6 (associate 2 5 no_forms page) page.
Lemma page_controls : live (s_heap page) 2 /\ owner_of (s_heap page) 2 = Some 0 /\ holds page_client 0 /\ controls page_forms (s_heap page) 2 0 [5; 6].
Proof.
  split; [apply livesb_ok; vm_compute; reflexivity|]. split; [vm_compute; reflexivity|]. split; [vm_compute; reflexivity|]. apply controlsb_ok. vm_compute. reflexivity.
Qed.
Lemma page_pointers : page_forms 5 = Some 2 /\ page_forms 6 = Some 2 /\ forall x f, page_forms x = Some f -> live (s_heap page) f.
Proof.
  split; [vm_compute; reflexivity|]. split; [vm_compute; reflexivity|]. intros x f H.
  assert (Q : f = 2). { destruct (Nat.eq_dec x 6) as [->|N6]; [assert (X : page_forms 6 = Some 2) by (vm_compute; reflexivity); congruence|].
    destruct (Nat.eq_dec x 5) as [->|N5]; [assert (X : page_forms 5 = Some 2) by (vm_compute; reflexivity); congruence|].
    unfold page_forms in H. rewrite !associate_others in H by auto. discriminate. }
  subst f. apply livesb_ok. vm_compute. reflexivity.
Qed.
Lemma page_up : type_of (s_heap page) 8 = Some ELEMENT /\ closest_above (s_heap page) s_FORM 8 (Some 2) /\ closest_above (s_heap page) s_FIELDSET 4 (Some 3) /\
  closest_above (s_heap page) s_FORM 3 (Some 2) /\ closest_above (s_heap page) s_SELECT 7 (Some 6).
Proof. split; [vm_compute; reflexivity|]. split; [|split; [|split]]; (refine (upb_ok page _ _ _ 10 _ _ _); [discriminate|discriminate|vm_compute; reflexivity]). Qed.

(** ** Refutations *)
Lemma anc_up : forall s a i q, parent_of (s_heap s) i = Some q -> anc (s_heap s) a q -> anc (s_heap s) a i.
Proof. intros s a i q P Q. unfold parent_of in P. destruct (s_heap s i) as [n|] eqn:E; [|discriminate]. exact (anc_step _ _ _ _ _ E P Q). Qed.
Lemma inside_missed : exists j s g f d c, reach j s g /\ briefly j /\ tag (s_heap s) s_FORM f /\ tag (s_heap s) s_INPUT c /\ owner_of (s_heap s) f = Some d /\ holds g d /\ anc (s_heap s) d f /\
  closest_above (s_heap s) s_FORM c (Some f) /\ controls no_forms (s_heap s) f d [].
Proof.
  exists 19, page, page_client, 2, 0, 5. split; [exact page_reach|]. split; [exact page_brief|].
  split; [apply tag_found; [discriminate|discriminate|vm_compute; reflexivity]|]. split; [apply tag_found; [discriminate|discriminate|vm_compute; reflexivity]|].
  split; [vm_compute; reflexivity|]. split; [vm_compute; reflexivity|]. split.
  { apply (anc_up page 0 2 1); [vm_compute; reflexivity|]. apply (anc_up page 0 1 0); [vm_compute; reflexivity|constructor]. }
  split; [refine (upb_ok page _ _ _ 10 _ _ _); [discriminate|discriminate|vm_compute; reflexivity]|]. apply controlsb_ok. vm_compute. reflexivity.
Qed.
(** The input is moved out of the form. *)
Definition moved_ops : list op := page_ops ++ [OAppend 1 5].
Definition moved : st := fst (played moved_ops).
Definition moved_client : client := snd (played moved_ops).
Lemma moved_reach : reach 20 moved moved_client.
Proof. apply (played_reach moved_ops); [vm_compute; reflexivity|unfold short; vm_compute; reflexivity]. Qed.
Lemma outside_kept : exists j s g s' g' f d c p, reach j s g /\ closest_above (s_heap s) s_FORM c (Some f) /\ p = associate f c no_forms s /\
  reach (S j) s' g' /\ briefly (S j) /\ live (s_heap s') f /\ owner_of (s_heap s') f = Some d /\ holds g' d /\ closest_above (s_heap s') s_FORM c None /\ controls p (s_heap s') f d [c].
Proof.
  exists 19, page, page_client, moved, moved_client, 2, 0, 5, (associate 2 5 no_forms page). split; [exact page_reach|].
  split; [refine (upb_ok page _ _ _ 10 _ _ _); [discriminate|discriminate|vm_compute; reflexivity]|]. split; [reflexivity|]. split; [exact moved_reach|].
  split; [unfold briefly; vm_compute; reflexivity|]. split; [apply livesb_ok; vm_compute; reflexivity|]. split; [vm_compute; reflexivity|]. split; [vm_compute; reflexivity|].
  split; [refine (upb_ok moved _ _ _ 10 _ _ _); [discriminate|discriminate|vm_compute; reflexivity]|]. apply controlsb_ok. vm_compute. reflexivity.
Qed.
(** The form is released before the input. *)
Definition bare_ops : list op := [ONewDocument; named s_FORM; named s_INPUT; OAppend 1 2].
Definition bare : st := fst (played bare_ops).
Definition bare_client : client := snd (played bare_ops).
Lemma bare_reach : reach 4 bare bare_client.
Proof. apply (played_reach bare_ops); [vm_compute; reflexivity|unfold short; vm_compute; reflexivity]. Qed.
Definition left_ops : list op := bare_ops ++ [OUnref 1].
Definition left_st : st := fst (played left_ops).
Definition left_client : client := snd (played left_ops).
Lemma left_reach : reach 5 left_st left_client.
Proof. apply (played_reach left_ops); [vm_compute; reflexivity|unfold short; vm_compute; reflexivity]. Qed.
Lemma left_alone : exists j s g s' g' f c p, reach j s g /\ closest_above (s_heap s) s_FORM c (Some f) /\ p = associate f c no_forms s /\ reach (S j) s' g' /\ holds g' c /\ live (s_heap s') c /\ p c = Some f /\ ~ live (s_heap s') f.
Proof.
  exists 4, bare, bare_client, left_st, left_client, 1, 2, (associate 1 2 no_forms bare). split; [exact bare_reach|].
  split; [refine (upb_ok bare _ _ _ 10 _ _ _); [discriminate|discriminate|vm_compute; reflexivity]|]. split; [reflexivity|]. split; [exact left_reach|]. split; [vm_compute; reflexivity|].
  split; [apply livesb_ok; vm_compute; reflexivity|]. split; [vm_compute; reflexivity|]. rewrite <- livesb_ok. vm_compute. discriminate.
Qed.
Lemma page_control : is_control (s_heap page) 5 /\ live (s_heap page) 2.
Proof. split; [left; apply tag_found; [discriminate|discriminate|vm_compute; reflexivity]|apply page_controls]. Qed.
