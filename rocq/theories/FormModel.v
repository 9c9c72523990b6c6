(** Model of forms and their controls: src/html/html_form_element.c, and the form a
    control, an option, a label, a fieldset or a legend answers.  Definitions only. *)
From Coq Require Import List Arith NArith Bool.
From Verif Require Import Base HeapModel StringModel WalkModel HtmlModel DocModel.
Import ListNotations.
Local Open Scope dom_scope.

Definition s_INPUT : bytes := [73; 78; 80; 85; 84]%N.
Definition s_TEXTAREA : bytes := [84; 69; 88; 84; 65; 82; 69; 65]%N.
Definition s_SELECT : bytes := [83; 69; 76; 69; 67; 84]%N.
Definition s_BUTTON : bytes := [66; 85; 84; 84; 79; 78]%N.
Definition s_FIELDSET : bytes := [70; 73; 69; 76; 68; 83; 69; 84]%N.

(** The field [form] of every control, html_input_element.h:21, html_text_area_element.h:20,
    html_select_element.h:20 and html_button_element.h:20.  No reference is counted for it. *)
Definition pointers : Type := id -> option id.
(** It is NULL in a new control, html_input_element.c:63 and the like. *)
Definition no_forms : pointers := fun _ => None.

(** The names of controls, html_form_element.c:307-324 and bindings/hubbub/parser.c:534-570. *)
Definition control (n : node) : bool :=
  caseless_isequal (n_name n) (Some s_INPUT) || caseless_isequal (n_name n) (Some s_TEXTAREA) ||
  caseless_isequal (n_name n) (Some s_SELECT) || caseless_isequal (n_name n) (Some s_BUTTON).

(** form_associate of the parser, parser.c:525-573, the only caller of the functions
    _dom_html_input_element_set_form (html_input_element.c:509-515) and the like. *)
Definition associate (f c : id) (p : pointers) (s : st) : pointers :=
  match s_heap s c with
  | Some n => if control n then fun j => if Nat.eqb j c then Some f else p j else p
  | None => p
  end.
(** The copy [j] of the control [i], html_input_element.c:389-392 and the like. *)
Definition copied (i j : id) (p : pointers) : pointers := fun k => if Nat.eqb k j then p i else p k.

(** _dom_is_form_control, html_form_element.c:299-327. *)
Definition form_control (p : pointers) (f : id) (s : st) (i : id) : bool :=
  match s_heap s i with Some n => control n && oid_eqb (p i) (Some f) | None => false end.
(** A question to the collection of a form: it is made, asked and released;
    html_form_element.c:167-208, html_collection.c:56-76 and 83-92. *)
Definition form_asked {A} (f : id) (ask : id -> M st A) : M st A :=
  n <- load f ;;
  match n_owner n with
  | None => stuck AssertFail
  | Some d => node_ref d ;;; node_ref d ;;; x <- ask d ;; node_unref d ;;; node_unref d ;;; ret x
  end.
(** dom_html_form_element_get_length, html_form_element.c:188-208. *)
Definition form_length (p : pointers) (f : id) : M st N :=
  form_asked f (fun d s => col_length (form_control p f s) d s).
(** dom_html_form_element_get_elements, html_form_element.c:167-179, and one element of
    the collection. *)
Definition form_item (p : pointers) (f : id) (index : N) : M st (option id) :=
  form_asked f (fun d s => col_item (form_control p f s) d index s).

(** dom_html_input_element_get_form, html_input_element.c:498-507, and the like of
    TEXTAREA, SELECT and BUTTON. *)
Definition get_form (p : pointers) (c : id) : M st (option id) :=
  load c ;;; ref_opt (p c).

(** The loops up the tree, html_label_element.c:160-167 and the like. *)
Fixpoint nearest (fuel : nat) (name : bytes) (c : option id) : M st (option id) :=
  match c with
  | None => ret None
  | Some i =>
      match fuel with
      | O => stuck OutOfFuel
      | S f =>
          n <- load i ;;
          if element_node n && caseless_isequal (n_name n) (Some name) then ret (Some i)
          else nearest f name (n_parent n)
      end
  end.
Definition enclosing (name : bytes) (i : id) : M st (option id) :=
  n <- load i ;; html_doc i ;;; with_fuel (fun f => nearest f name (n_parent n)).
(** dom_html_label_element_get_form, html_label_element.c:152-177, and
    dom_html_field_set_element_get_form, html_fieldset_element.c:155-182. *)
Definition label_form (i : id) : M st (option id) := o <- enclosing s_FORM i ;; ref_opt o.
(** dom_html_legend_element_get_form, html_legend_element.c:96-121. *)
Definition legend_form (i : id) : M st (option id) :=
  o <- enclosing s_FIELDSET i ;; match o with Some x => label_form x | None => ret None end.
(** dom_html_option_element_get_form, html_option_element.c:95-121. *)
Definition option_form (p : pointers) (i : id) : M st (option id) :=
  o <- enclosing s_SELECT i ;; match o with Some x => get_form p x | None => ret None end.
