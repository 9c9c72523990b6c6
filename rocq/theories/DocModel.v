(** Model of the title, the body and the collections of an HTML document on the
    node heap. *)
From Coq Require Import List Arith NArith Bool.
From Verif Require Import Base HeapModel StringModel WalkModel HtmlModel.
Import ListNotations.
Local Open Scope dom_scope.

Definition s_TITLE : bytes := [84; 73; 84; 76; 69]%N.
Definition s_BODY : bytes := [66; 79; 68; 89]%N.
Definition s_FRAMESET : bytes := [70; 82; 65; 77; 69; 83; 69; 84]%N.
Definition s_IMG : bytes := [73; 77; 71]%N.
Definition s_A : bytes := [65]%N.
Definition s_AREA : bytes := [65; 82; 69; 65]%N.
Definition s_FORM : bytes := [70; 79; 82; 77]%N.
Definition s_APPLET : bytes := [65; 80; 80; 76; 69; 84]%N.
Definition s_OBJECT : bytes := [79; 66; 74; 69; 67; 84]%N.
Definition s_href : bytes := [104; 114; 101; 102]%N.
Definition s_name : bytes := [110; 97; 109; 101]%N.

(** The fields title and body of struct dom_html_document, html_document.h:22-27. *)
Record fields : Type := mkFields { f_title : option bytes; f_body : option id }.
(** _dom_html_document_initialise sets both to NULL, html_document.c:134-140. *)
Definition new_fields : fields := mkFields None None.

(** The list of the elements of that name, html_document.c:1024-1030; the list's own
    reference counts are those of C52. *)
Definition named_in (d : id) (name : bytes) : nodelist := list_by_name true d name.

(** _dom_html_document_get_title, html_document.c:1069-1111. *)
Definition get_title (x : fields) (d : id) : M st (option bytes) :=
  match f_title x with
  | Some t => ret (Some t)
  | None =>
      len <- list_length (named_in d s_TITLE) ;;
      if N.eqb len 0 then ret None
      else
        node <- list_item (named_in d s_TITLE) 0 ;;
        match node with
        | None => stuck NullDeref
        | Some n => t <- get_text_content n ;; node_unref n ;;; ret t
        end
  end.
(** _dom_html_document_set_title, html_document.c:1113-1122. *)
Definition set_title (t : option bytes) (x : fields) : fields := mkFields t (f_body x).

(** _dom_html_document_get_body, html_document.c:1148-1202.  [before] is what the
    caller's variable holds: the code leaves it alone when it finds nothing. *)
Definition get_body (x : fields) (d : id) (before : option id) : M st (option id) :=
  match f_body x with
  | Some b => ret (Some b)
  | None =>
      len <- list_length (named_in d s_BODY) ;;
      if N.eqb len 0 then
        len' <- list_length (named_in d s_FRAMESET) ;;
        if N.eqb len' 0 then ret before else list_item (named_in d s_FRAMESET) 0
      else list_item (named_in d s_BODY) 0
  end.
(** _dom_html_document_set_body, html_document.c:1204-1209. *)
Definition set_body (b : option id) (x : fields) : fields := mkFields (f_title x) b.

(** The collections but applets. *)
Inductive coll : Type := IMAGES | LINKS | FORMS | ANCHORS.
(** dom_element_has_attribute, element.c:1023-1031, as a test. *)
Definition attributed (name : bytes) (s : st) (n : node) : bool :=
  existsb (fun a => match s_heap s a with Some na => isequal (Some name) (n_name na) | None => false end) (n_attrs n).
(** images_callback, html_document.c:1246-1255; links_callback, 1330-1351;
    __dom_html_document_node_is_form, 1368-1377; anchors_callback, 1411-1429.  The
    collection asks about elements only. *)
Definition member (c : coll) (s : st) (i : id) : bool :=
  match s_heap s i with
  | None => false
  | Some n =>
      match c with
      | IMAGES => caseless_isequal (n_name n) (Some s_IMG)
      | LINKS => (caseless_isequal (n_name n) (Some s_A) || caseless_isequal (n_name n) (Some s_AREA)) && attributed s_href s n
      | FORMS => caseless_isequal (n_name n) (Some s_FORM)
      | ANCHORS => caseless_isequal (n_name n) (Some s_A) && attributed s_name s n
      end
  end.
(** _dom_html_document_get_images, html_document.c:1257-1270, and the like: the collection
    of the document element, which html_collection.c:63 asserts to be there.  The
    references are given back at the end of the question instead of being handed
    from the caller to the collection. *)
Definition doc_length (c : coll) (d : id) : M st N :=
  r <- document_element d ;;
  match r with
  | None => stuck AssertFail
  | Some r => len <- (fun s => col_length (member c s) r s) ;; node_unref r ;;; ret len
  end.
Definition doc_item (c : coll) (d : id) (index : N) : M st (option id) :=
  r <- document_element d ;;
  match r with
  | None => stuck AssertFail
  | Some r => x <- (fun s => col_item (member c s) r index s) ;; node_unref r ;;; ret x
  end.

(** applets_callback, html_document.c:1289-1306: an OBJECT with an APPLET in the
    collection of what is at and below it. *)
Definition is_applets (i : id) : M st bool := fun s =>
  match s_heap s i with
  | None => Bad UseAfterFree
  | Some n =>
      if caseless_isequal (n_name n) (Some s_OBJECT)
      then (len <- (fun s => col_length (tagged_as caseless_isequal s_APPLET s) i s) ;; ret (negb (N.eqb len 0))) s
      else Ok false s
  end.
(** dom_html_collection_get_length, html_collection.c:116-150, with this callback. *)
Fixpoint applets_loop (fuel : nat) (root : id) (cur : option id) (len : N) : M st N :=
  match cur with
  | None => ret len
  | Some i =>
      match fuel with
      | O => stuck OutOfFuel
      | S f =>
          n <- load i ;;
          b <- (if element_node n then is_applets i else ret false) ;;
          nx <- col_next root i ;;
          applets_loop f root nx (if (b : bool) then u32 (len + 1) else len)
      end
  end.
Definition applets_length (d : id) : M st N :=
  r <- document_element d ;;
  match r with
  | None => stuck AssertFail
  | Some r => len <- with_fuel (fun f => applets_loop f r (Some r) 0%N) ;; node_unref r ;;; ret len
  end.
