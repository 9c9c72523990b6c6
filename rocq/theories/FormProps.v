(** C64: forms and their controls. *)
From Coq Require Import List Arith NArith ZArith Bool.
From Verif Require Import Base HeapModel HeapSpec HistModel TreeSpec WalkSpec HtmlModel HtmlSpec HtmlBase DocModel DocSpec FormModel FormSpec FormProofs FormWitness.
Import ListNotations.

(** The elements of a form are the controls of the document associated with it, in
    document order, whatever else is in the document; asking keeps no reference. *)
Theorem C64_controls_partial : forall j s g, reach j s g -> briefly j -> forall p f d k, live (s_heap s) f -> owner_of (s_heap s) f = Some d -> holds g d -> controls p (s_heap s) f d k ->
  (exists s', form_length p f s = Ok (N.of_nat (length k)) s' /\ same_state s s') /\
  (forall index, (index + 1 < two32)%N -> exists s', form_item p f index s = Ok (nth_error k (N.to_nat index)) s' /\ answered s (nth_error k (N.to_nat index)) s').
Proof. exact reach_controls. Qed.
(** A control that the parser associates with a form answers that form. *)
Theorem C64_form : forall j s g, reach j s g -> briefly j -> forall p c f, is_control (s_heap s) c -> live (s_heap s) f ->
  exists s', get_form (associate f c p s) c s = Ok (Some f) s' /\ answered s (Some f) s'.
Proof. exact reach_associated. Qed.
(** Nothing else changes its form by that, and nothing but a control has one. *)
Theorem C64_others : forall f c p s i, i <> c \/ ~ (exists n, s_heap s c = Some n /\ control n = true) -> associate f c p s i = p i.
Proof. exact associate_others. Qed.
(** A label and a fieldset answer the closest form around them, *)
Theorem C64_label : forall j s g, reach j s g -> briefly j -> forall i, type_of (s_heap s) i = Some ELEMENT ->
  exists o s', closest_above (s_heap s) s_FORM i o /\ label_form i s = Ok o s' /\ answered s o s'.
Proof. exact reach_label. Qed.
(** a legend that of the closest fieldset, *)
Theorem C64_legend : forall j s g, reach j s g -> briefly j -> forall i, type_of (s_heap s) i = Some ELEMENT ->
  exists q o s', closest_above (s_heap s) s_FIELDSET i q /\ (match q with Some x => closest_above (s_heap s) s_FORM x o | None => o = None end) /\ legend_form i s = Ok o s' /\ answered s o s'.
Proof. exact reach_legend. Qed.
(** and an option that of the closest select. *)
Theorem C64_option_partial : forall j s g, reach j s g -> briefly j -> forall p i, type_of (s_heap s) i = Some ELEMENT -> (forall x f, p x = Some f -> live (s_heap s) f) ->
  exists q o s', closest_above (s_heap s) s_SELECT i q /\ o = match q with Some x => p x | None => None end /\ option_form p i s = Ok o s' /\ answered s o s'.
Proof. exact reach_option. Qed.

(** A document built through the API alone has only empty forms, whatever is in them. *)
Theorem C64_api_refuted : (forall j s g, reach j s g -> briefly j -> forall f d k, live (s_heap s) f -> owner_of (s_heap s) f = Some d -> holds g d -> controls no_forms (s_heap s) f d k ->
    exists s', form_length no_forms f s = Ok 0%N s') /\
  exists j s g f d c, reach j s g /\ briefly j /\ tag (s_heap s) s_FORM f /\ tag (s_heap s) s_INPUT c /\ owner_of (s_heap s) f = Some d /\ holds g d /\ anc (s_heap s) d f /\
    closest_above (s_heap s) s_FORM c (Some f) /\ controls no_forms (s_heap s) f d [].
Proof. exact (conj reach_empty inside_missed). Qed.
(** A control taken out of its form stays one of its elements. *)
Theorem C64_moved_refuted : exists j s g s' g' f d c p, reach j s g /\ closest_above (s_heap s) s_FORM c (Some f) /\ p = associate f c no_forms s /\
  reach (S j) s' g' /\ briefly (S j) /\ live (s_heap s') f /\ owner_of (s_heap s') f = Some d /\ holds g' d /\ closest_above (s_heap s') s_FORM c None /\ controls p (s_heap s') f d [c].
Proof. exact outside_kept. Qed.
(** Once the form is gone, asking a control for it is a use after free. *)
Theorem C64_gone_refuted : (forall s p c f, live (s_heap s) c -> p c = Some f -> ~ live (s_heap s) f -> get_form p c s = Bad UseAfterFree) /\
  exists j s g s' g' f c p, reach j s g /\ closest_above (s_heap s) s_FORM c (Some f) /\ p = associate f c no_forms s /\ reach (S j) s' g' /\ holds g' c /\ live (s_heap s') c /\ p c = Some f /\ ~ live (s_heap s') f.
Proof. exact (conj form_gone left_alone). Qed.

Example C64_page : reach 19 page page_client /\ briefly 19. Proof. exact (conj page_reach page_brief). Qed.
Example C64_controls_case : live (s_heap page) 2 /\ owner_of (s_heap page) 2 = Some 0 /\ holds page_client 0 /\ controls page_forms (s_heap page) 2 0 [5; 6].
Proof. exact page_controls. Qed.
Example C64_form_case : is_control (s_heap page) 5 /\ live (s_heap page) 2. Proof. exact page_control. Qed.
Example C64_up_case : type_of (s_heap page) 8 = Some ELEMENT /\ closest_above (s_heap page) s_FORM 8 (Some 2) /\ closest_above (s_heap page) s_FIELDSET 4 (Some 3) /\
  closest_above (s_heap page) s_FORM 3 (Some 2) /\ closest_above (s_heap page) s_SELECT 7 (Some 6).
Proof. exact page_up. Qed.
Example C64_option_case : page_forms 5 = Some 2 /\ page_forms 6 = Some 2 /\ forall x f, page_forms x = Some f -> live (s_heap page) f.
Proof. exact page_pointers. Qed.

Definition C64_theorems := (C64_controls_partial, C64_form, C64_others, C64_label, C64_legend, C64_option_partial, C64_api_refuted, C64_moved_refuted, C64_gone_refuted).
Print Assumptions C64_theorems.
