(** C62: the title, the body and the collections of a document. *)
From Coq Require Import List Arith NArith ZArith Bool.
From Verif Require Import Base HeapModel HeapSpec HistModel TreeSpec WalkSpec HtmlModel HtmlSpec HtmlBase DocModel DocSpec DocProofs DocWitness.
Import ListNotations.

(** The title is the text of the first TITLE element, none without one, *)
Theorem C62_title_partial : forall j s g, reach j s g -> briefly j -> forall x d t k ds vs, f_title x = None -> below (s_heap s) d s_TITLE (t :: k) ->
  order (s_heap s) t (t :: ds) -> texts (s_heap s) ds vs -> exists s', get_title x d s = Ok (joined vs) s' /\ same_state s s'.
Proof. exact reach_title_first. Qed.
Theorem C62_title_none : forall j s g, reach j s g -> briefly j -> forall x d, f_title x = None -> below (s_heap s) d s_TITLE [] -> get_title x d s = Ok None s.
Proof. exact reach_title_none. Qed.
(** and what was set once it was, *)
Theorem C62_title_set : forall x t d s, get_title (set_title (Some t) x) d s = Ok (Some t) s.
Proof. exact title_set. Qed.
(** whatever the TITLE element says. *)
Theorem C62_title_refuted : exists j s g x d t i v u, reach j s g /\ briefly j /\ below (s_heap s) d s_TITLE [t] /\ order (s_heap s) t [t; i] /\ texts (s_heap s) [i] [v] /\
  x = set_title (Some u) new_fields /\ u <> v /\ get_title x d s = Ok (Some u) s.
Proof. exact title_hidden. Qed.

(** The body is the first BODY, or else the first FRAMESET; without either the
    caller's variable is left as it was. *)
Theorem C62_body_partial : forall j s g, reach j s g -> briefly j -> forall x d k fs before, f_body x = None -> below (s_heap s) d s_BODY k -> below (s_heap s) d s_FRAMESET fs ->
  match k ++ fs with
  | [] => get_body x d before s = Ok before s
  | _ => exists s', get_body x d before s = Ok (hd_error (k ++ fs)) s' /\ answered s (hd_error (k ++ fs)) s'
  end.
Proof. exact reach_body. Qed.
Theorem C62_body_refuted : exists j s g d, reach j s g /\ briefly j /\ below (s_heap s) d s_BODY [] /\ below (s_heap s) d s_FRAMESET [] /\
  forall before, get_body new_fields d before s = Ok before s.
Proof. exact body_left. Qed.
(** A body that was set is answered without a reference, even when it is gone. *)
Theorem C62_body_set : forall x b d before s, get_body (set_body (Some b) x) d before s = Ok (Some b) s.
Proof. exact body_set. Qed.
Theorem C62_body_set_refuted : exists j s g j' s' g' x d b before, reach j s g /\ briefly j' /\ type_of (s_heap s) b = Some ELEMENT /\ reach j' s' g' /\ x = set_body (Some b) new_fields /\
  ~ live (s_heap s') b /\ get_body x d before s' = Ok (Some b) s'.
Proof. exact body_gone. Qed.

(** The collections list their members in document order, *)
Theorem C62_collections_partial : forall j s g, reach j s g -> briefly j -> forall c d k, members c (s_heap s) d k ->
  (exists s', doc_length c d s = Ok (N.of_nat (length k)) s' /\ same_state s s') /\
  (forall index, (index + 1 < two32)%N -> exists s', doc_item c d index s = Ok (nth_error k (N.to_nat index)) s' /\ answered s (nth_error k (N.to_nat index)) s').
Proof. exact reach_members. Qed.
(** but asking a document without an element for one fails an assertion, *)
Theorem C62_rootless_refuted : forall j s g, reach j s g -> briefly j -> forall d, root_element (s_heap s) d None ->
  forall c index, doc_length c d s = Bad AssertFail /\ doc_item c d index s = Bad AssertFail /\ applets_length d s = Bad AssertFail.
Proof. exact reach_rootless. Qed.
(** an APPLET is not among the applets, and an OBJECT without children and with a sibling
    is a NULL dereference. *)
Theorem C62_applets_refuted : exists j s g d a s', reach j s g /\ briefly j /\ below (s_heap s) d s_APPLET [a] /\ applets_length d s = Ok 0%N s'.
Proof. exact app_missed. Qed.
Theorem C62_applets_null_refuted : exists j s g d a, reach j s g /\ briefly j /\ below (s_heap s) d s_OBJECT [a] /\ applets_length d s = Bad NullDeref.
Proof. exact obj_stuck. Qed.

Example C62_site : reach 27 site site_client /\ briefly 27. Proof. exact (conj site_reach site_brief). Qed.
Example C62_title_case : below (s_heap site) 0 s_TITLE [3] /\ order (s_heap site) 3 [3; 4] /\ texts (s_heap site) [4] [[104; 105]%N]. Proof. exact (conj site_titles site_text). Qed.
Example C62_body_case : below (s_heap site) 0 s_BODY [5] /\ below (s_heap site) 0 s_FRAMESET []. Proof. exact site_bodies. Qed.
Example C62_collections_case : members IMAGES (s_heap site) 0 [6] /\ members LINKS (s_heap site) 0 [7; 12] /\ members FORMS (s_heap site) 0 [9] /\ members ANCHORS (s_heap site) 0 [10].
Proof. exact site_members. Qed.
Example C62_blank_case : reach 1 blank blank_client /\ briefly 1 /\ below (s_heap blank) 0 s_TITLE [] /\ root_element (s_heap blank) 0 None.
Proof. exact (conj blank_reach (conj blank_brief (conj (proj1 blank_below) blank_root))). Qed.

Definition C62_theorems := (C62_title_partial, C62_title_none, C62_title_set, C62_title_refuted, C62_body_partial, C62_body_refuted, C62_body_set, C62_body_set_refuted,
  C62_collections_partial, C62_rootless_refuted, C62_applets_refuted, C62_applets_null_refuted).
Print Assumptions C62_theorems.
