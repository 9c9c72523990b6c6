(** Strings and the objects of an HTML document that keep them: creation of elements
    by name, the document's title, the values and default values of INPUT and TEXTAREA
    elements, copies and destruction.  include/dom/core/string.h:15-41,
    src/html/html_document.c:554-935 and 1069-1122, src/core/node.c:148-290,
    src/html/html_input_element.c, src/html/html_text_area_element.c.  Definitions
    only.

    Strings live in a heap of their own, each with its bytes and its count of
    references; a string is gone as soon as its count is zero.  Left out: the other
    fields of elements (the node heap is HeapModel), attributes except for what INPUT
    does when one is set, failures of malloc, forms.  A TEXTAREA has one text child or
    none.  The strings the document keeps for comparing (doc->elements, doc->memoised,
    dom_namespaces) are given by their bytes: they are never handed out here. *)
From Coq Require Import List NArith Bool.
From Verif Require Import Base StringModel.
Import ListNotations.
Local Open Scope dom_scope.

(** The fields of dom_html_input_element (html_input_element.h) and
    dom_html_text_area_element, and for the latter the string of its text child. *)
Inductive ctl : Type :=
| Plain
| Input (dval : option nat) (dval_set : bool) (val : option nat) (val_set : bool)
        (dchk dchk_set chk chk_set : bool)
| Area (dval : option nat) (dval_set : bool) (val : option nat) (val_set : bool) (text : option nat).

(** An element: the strings of dom_node_internal and the control's own. *)
Record elem : Type := mkElem { e_name : nat; e_ns : option nat; e_prefix : option nat; e_ctl : ctl }.

(** The strings, the elements made so far (gone ones are [None]) and the title. *)
Record cst : Type := mkCst
  { c_str : nat -> option (bytes * N);
    c_nxt : nat;
    c_els : list (option elem);
    c_title : option nat }.

Definition upd {A} (f : nat -> A) (i : nat) (a : A) : nat -> A := fun j => if Nat.eqb j i then a else f j.
Definition set_str (s : cst) (f : nat -> option (bytes * N)) : cst := mkCst f (c_nxt s) (c_els s) (c_title s).
Definition set_els (s : cst) (l : list (option elem)) : cst := mkCst (c_str s) (c_nxt s) l (c_title s).
Fixpoint put (l : list (option elem)) (e : nat) (x : option elem) : list (option elem) :=
  match l, e with
  | [], _ => []
  | _ :: r, O => x :: r
  | y :: r, S k => y :: put r k x
  end.

(** ** Strings *)

(** dom_string_create: a fresh string with one reference. *)
Definition s_new (b : bytes) : M cst nat :=
  fun s => Ok (c_nxt s) (mkCst (upd (c_str s) (c_nxt s) (Some (b, 1%N))) (S (c_nxt s)) (c_els s) (c_title s)).
(** Reading a string's bytes. *)
Definition s_data (i : nat) : M cst bytes :=
  fun s => match c_str s i with Some (b, _) => Ok b s | None => Bad UseAfterFree end.
(** dom_string_ref, string.h:25-30. *)
Definition s_ref (i : nat) : M cst unit :=
  fun s => match c_str s i with
           | Some (b, c) => Ok tt (set_str s (upd (c_str s) i (Some (b, u32 (c + 1)))))
           | None => Bad UseAfterFree
           end.
(** dom_string_unref and dom_string_destroy, string.h:36-41. *)
Definition s_unref (i : nat) : M cst unit :=
  fun s => match c_str s i with
           | Some (b, c) =>
               let c' := u32 (c + two32 - 1) in
               Ok tt (set_str s (upd (c_str s) i (if (c' =? 0)%N then None else Some (b, c'))))
           | None => Bad UseAfterFree
           end.
(** Both do nothing on NULL. *)
Definition o_ref (o : option nat) : M cst unit := match o with Some i => s_ref i | None => ret tt end.
Definition o_unref (o : option nat) : M cst unit := match o with Some i => s_unref i | None => ret tt end.
Definition o_data (o : option nat) : M cst bytes := match o with Some i => s_data i | None => ret [] end.

(** ** Elements *)

(** dom_string_toupper on ASCII, string.c:933-966. *)
Definition upper (b : bytes) : bytes := map (fun c => if ((97 <=? c) && (c <=? 122))%N then (c - 32)%N else c) b.
(** dom_namespaces[DOM_NAMESPACE_SVG], namespace.c:28. *)
Definition svg_ns : bytes :=
  [104;116;116;112;58;47;47;119;119;119;46;119;51;46;111;114;103;47;50;48;48;48;47;115;118;103]%N.
Definition n_input : bytes := [73;78;80;85;84]%N.
Definition n_textarea : bytes := [84;69;88;84;65;82;69;65]%N.
Definition n_checked : bytes := [99;104;101;99;107;101;100]%N.
Definition n_value : bytes := [118;97;108;117;101]%N.

(** _dom_html_document_get_element_type, html_document.c:267-281, and the create
    functions' initial fields (html_input_element.c:59-74,
    html_text_area_element.c:56-70); the other types hold no string of these. *)
Definition ctl_of (name : bytes) : ctl :=
  if bytes_eqb name n_input then Input None false None false false false false false
  else if bytes_eqb name n_textarea then Area None false None false None
  else Plain.

(** The element is allocated, html_document.c:582-889; _dom_node_initialise takes the
    references, node.c:148-210. *)
Definition alloc_el (name : nat) (ns prefix : option nat) : M cst nat :=
  d <- s_data name ;;
  s_ref name ;;; o_ref ns ;;; o_ref prefix ;;;
  fun s => Ok (length (c_els s)) (set_els s (c_els s ++ [Some (mkElem name ns prefix (ctl_of d))])).

(** _dom_html_document_create_element_internal, html_document.c:554-897. *)
Definition create_internal (tag : nat) (ns prefix : option nat) : M cst nat :=
  d <- s_data tag ;;
  match d with
  | [] => raise INVALID_CHARACTER_ERR
  | _ =>
      n <- o_data ns ;;
      name <- (if bytes_eqb n svg_ns then s_unref tag ;;; ret tag else s_new (upper d)) ;;
      e <- alloc_el name ns prefix ;;
      s_unref name ;;;
      ret e
  end.

(** _dom_html_document_create_element, html_document.c:899-907. *)
Definition create_element (tag : nat) : M cst nat := create_internal tag None None.

(** The bytes before and after the first colon. *)
Fixpoint cut (b : bytes) : option (bytes * bytes) :=
  match b with
  | [] => None
  | c :: r => if (c =? 58)%N then Some ([], r)
              else match cut r with Some (p, l) => Some (c :: p, l) | None => None end
  end.
(** _dom_namespace_split_qname, namespace.c:249-285, on text (C37 shows it cuts at the
    first colon). *)
Definition split (q : nat) : M cst (option nat * nat) :=
  d <- s_data q ;;
  match cut d with
  | None => s_ref q ;;; ret (None, q)
  | Some (p, l) => p' <- s_new p ;; l' <- s_new l ;; ret (Some p', l')
  end.
(** _dom_html_document_create_element_ns, html_document.c:909-935. *)
Definition create_element_ns (ns : option nat) (q : nat) : M cst nat :=
  pl <- split q ;;
  r <- try (create_internal (snd pl) ns (fst pl)) ;;
  s_unref (snd pl) ;;;
  o_unref (fst pl) ;;;
  match r with inl e => ret e | inr x => raise x end.

Definition el_at (s : cst) (e : nat) : option elem := nth e (c_els s) None.
(** The element a function works on. *)
Definition get_el (e : nat) : M cst elem :=
  fun s => match el_at s e with Some x => Ok x s | None => Bad UseAfterFree end.
Definition set_ctl (e : nat) (c : ctl) : M cst unit :=
  fun s => match el_at s e with
           | Some x => Ok tt (set_els s (put (c_els s) e (Some (mkElem (e_name x) (e_ns x) (e_prefix x) c))))
           | None => Bad UseAfterFree
           end.

(** What the control gives back: html_input_element.c:81-93,
    html_text_area_element.c:77-92; the text child goes with the element's children in
    _dom_node_finalise, node.c:224-290. *)
Definition free_ctl (c : ctl) : M cst unit :=
  match c with
  | Plain => ret tt
  | Input dv _ v _ _ _ _ _ => o_unref dv ;;; o_unref v
  | Area dv _ v _ t => o_unref dv ;;; o_unref v ;;; o_unref t
  end.
(** The element's destruction, when its last reference is dropped. *)
Definition destroy_el (e : nat) : M cst unit :=
  x <- get_el e ;;
  free_ctl (e_ctl x) ;;;
  o_unref (e_prefix x) ;;; o_unref (e_ns x) ;;; s_unref (e_name x) ;;;
  fun s => Ok tt (set_els s (put (c_els s) e None)).

(** The copy of a control: html_input_element.c:379-406,
    html_text_area_element.c:325-346; the copy has no child. *)
Definition copy_ctl (c : ctl) : M cst ctl :=
  match c with
  | Plain => ret Plain
  | Input dv dvs v vs dc dcs ck cks => o_ref dv ;;; o_ref v ;;; ret (Input dv dvs v vs dc dcs ck cks)
  | Area dv dvs v vs _ => o_ref dv ;;; o_ref v ;;; ret (Area dv dvs v vs None)
  end.
(** cloneNode(false): _dom_node_copy_internal takes its references, node.c:1900-1960. *)
Definition copy_el (e : nat) : M cst nat :=
  x <- get_el e ;;
  s_ref (e_name x) ;;; o_ref (e_ns x) ;;; o_ref (e_prefix x) ;;;
  c <- copy_ctl (e_ctl x) ;;
  fun s => Ok (length (c_els s)) (set_els s (c_els s ++ [Some (mkElem (e_name x) (e_ns x) (e_prefix x) c)])).

(** ** The title, html_document.c:1069-1122; no TITLE element is in the document. *)
Definition get_title : M cst (option nat) :=
  fun s => (o_ref (c_title s) ;;; ret (c_title s)) s.
Definition set_title (t : option nat) : M cst unit :=
  fun s => (o_unref (c_title s) ;;; o_ref t ;;;
            fun s' => Ok tt (mkCst (c_str s') (c_nxt s') (c_els s') t)) s.

(** ** Values and default values *)

(** dom_html_input_element_get_value and _get_default_value,
    html_input_element.c:209-220 and 251-260; dom_html_text_area_element_get_value and
    _get_default_value, html_text_area_element.c:171-245.  The text content of a TEXTAREA
    is its text child's own string with a reference added, NULL without a child.  The
    inner test of get_value is on a flag just set to true. *)
Definition get_default (e : nat) : M cst (option nat) :=
  x <- get_el e ;;
  match e_ctl x with
  | Input dv _ _ _ _ _ _ _ => o_ref dv ;;; ret dv
  | Area dv dvs v vs t =>
      if dvs then o_ref dv ;;; ret dv
      else o_ref t ;;; set_ctl e (Area t true v vs t) ;;; o_ref t ;;; ret t
  | Plain => stuck BadCast
  end.
Definition get_value (e : nat) : M cst (option nat) :=
  x <- get_el e ;;
  match e_ctl x with
  | Input dv _ v vs _ _ _ _ => if vs then o_ref v ;;; ret v else o_ref dv ;;; ret dv
  | Area dv _ v vs t =>
      if vs then o_ref v ;;; ret v
      else o_ref t ;;; set_ctl e (Area dv true t vs t) ;;; o_ref t ;;; ret t
  | Plain => stuck BadCast
  end.
(** dom_html_input_element_set_default_value, html_input_element.c:269-282, and the
    same of TEXTAREA, html_text_area_element.c:199-212. *)
Definition set_default (e : nat) (d : option nat) : M cst unit :=
  x <- get_el e ;;
  match e_ctl x with
  | Input dv _ v vs dc dcs ck cks => o_unref dv ;;; set_ctl e (Input d true v vs dc dcs ck cks) ;;; o_ref d
  | Area dv _ v vs t => o_unref dv ;;; set_ctl e (Area d true v vs t) ;;; o_ref d
  | Plain => stuck BadCast
  end.
(** dom_html_input_element_set_value, html_input_element.c:229-242.
    dom_html_text_area_element_set_value, html_text_area_element.c:254-277: the text
    content is read as the default value first, and is replaced last: the text child
    goes, and a new one with the value comes. *)
Definition set_value (e : nat) (w : option nat) : M cst unit :=
  x <- get_el e ;;
  match e_ctl x with
  | Input dv dvs v _ dc dcs ck cks => o_unref v ;;; set_ctl e (Input dv dvs w true dc dcs ck cks) ;;; o_ref w
  | Area dv dvs v _ t =>
      (if dvs then ret tt else o_ref t) ;;;
      let dv' := if dvs then dv else t in
      o_unref v ;;; o_ref w ;;;
      o_unref t ;;; o_ref w ;;;
      set_ctl e (Area dv' true w true w)
  | Plain => stuck BadCast
  end.
(** dom_node_set_text_content on a TEXTAREA, node.c:1507-1550. *)
Definition set_text (e : nat) (w : option nat) : M cst unit :=
  x <- get_el e ;;
  match e_ctl x with
  | Area dv dvs v vs t => o_unref t ;;; o_ref w ;;; set_ctl e (Area dv dvs v vs w)
  | _ => stuck BadCast
  end.

(** _dom_html_input_element_parse_attribute, html_input_element.c:320-349: what INPUT
    does when an attribute is set; the reference for the attribute's own value and the
    attribute itself are left out. *)
Definition set_attr (e name : nat) (w : nat) : M cst unit :=
  x <- get_el e ;;
  n <- s_data name ;;
  match e_ctl x with
  | Input dv dvs v vs dc dcs ck cks =>
      let isc := string_caseless_isequal (Some (mk_dstr false n)) (Some (mk_dstr true n_checked)) in
      let isv := string_caseless_isequal (Some (mk_dstr false n)) (Some (mk_dstr true n_value)) in
      let dc' := if isc && negb dcs then true else dc in
      let dcs' := if isc then true else dcs in
      if isv && negb dvs then
        set_ctl e (Input (Some w) true v vs dc' dcs' ck cks) ;;; s_ref w
      else set_ctl e (Input dv dvs v vs dc' dcs' ck cks)
  | _ => ret tt
  end.

(** dom_html_input_element_get_checked, _set_checked, _get_default_checked and
    _set_default_checked, html_input_element.c:172-200 and 291-313 (the "checked"
    attribute set_checked adds is left out, see NumModel). *)
Definition get_checked (e : nat) : M cst bool :=
  x <- get_el e ;;
  match e_ctl x with
  | Input _ _ _ _ dc _ ck cks => ret (if cks then ck else dc)
  | _ => stuck BadCast
  end.
Definition set_checked (e : nat) (b : bool) : M cst unit :=
  x <- get_el e ;;
  match e_ctl x with
  | Input dv dvs v vs dc dcs _ _ => set_ctl e (Input dv dvs v vs dc dcs b true)
  | _ => stuck BadCast
  end.
Definition get_dchecked (e : nat) : M cst bool :=
  x <- get_el e ;;
  match e_ctl x with Input _ _ _ _ dc _ _ _ => ret dc | _ => stuck BadCast end.
Definition set_dchecked (e : nat) (b : bool) : M cst unit :=
  x <- get_el e ;;
  match e_ctl x with
  | Input dv dvs v vs _ _ ck cks => set_ctl e (Input dv dvs v vs b true ck cks)
  | _ => stuck BadCast
  end.
