(** Model of src/utils/validate.c, src/utils/namespace.c and of the name part
    of node creation.  Names are byte strings; a NULL argument is [None].
    No proofs here. *)
From Coq Require Import List Arith NArith ZArith Bool.
From Verif Require Import Base Utf8Model StringModel CharModel.
Import ListNotations.
Local Open Scope N_scope.

Definition between (a ch b : N) : bool := (a <=? ch) && (ch <=? b).

(** character_valid.h:54: is_letter; a search that fails to be defined counts
    as false here (CharProofs shows it is always defined). *)
Definition yes (o : option bool) : bool := match o with Some b => b | None => false end.
Definition is_letter (ch : N) : bool := yes (is_base_char ch) || yes (is_ideographic ch).

(** validate.c:28-53: is_first_char. *)
Definition is_first_char (ch : N) : bool :=
  if between 97 ch 122 || between 65 ch 90 || (ch =? 95) || (ch =? 58) ||
     between 0xC0 ch 0xD6 || between 0xD8 ch 0xF6 || between 0xF8 ch 0x2FF ||
     between 0x370 ch 0x37D || between 0x37F ch 0x1FFF || between 0x200C ch 0x200D ||
     between 0x2070 ch 0x218F || between 0x2C00 ch 0x2FEF || between 0x3001 ch 0xD7FF ||
     between 0xF900 ch 0xFDCF || between 0xFDF0 ch 0xFFFD || between 0x10000 ch 0xEFFFF
  then true
  else if is_letter ch || (ch =? 95) || (ch =? 58) then true
  else false.

(** validate.c:56-90: is_name_char. *)
Definition is_name_char (ch : N) : bool :=
  if between 97 ch 122 || between 65 ch 90 || between 48 ch 57 || (ch =? 95) || (ch =? 58) ||
     (ch =? 45) || (ch =? 46) || (ch =? 0xB7) ||
     between 0xC0 ch 0xD6 || between 0xD8 ch 0xF6 || between 0xF8 ch 0x2FF ||
     between 0x300 ch 0x36F ||
     between 0x370 ch 0x37D || between 0x37F ch 0x1FFF || between 0x200C ch 0x200D ||
     between 0x203F ch 0x2040 ||
     between 0x2070 ch 0x218F || between 0x2C00 ch 0x2FEF || between 0x3001 ch 0xD7FF ||
     between 0xF900 ch 0xFDCF || between 0xFDF0 ch 0xFFFD || between 0x10000 ch 0xEFFFF
  then true
  else if is_letter ch then true
  else if yes (is_digit ch) then true
  else if yes (is_combining_char ch) then true
  else if yes (is_extender ch) then true
  else false.

(** validate.c:92-120: is_attribute_name_char. *)
Definition is_attribute_name_char (ch : N) : bool :=
  if between 97 ch 122 || between 65 ch 90 || between 48 ch 57 then true
  else if (ch =? 32) || (ch =? 34) || (ch =? 39) || (ch =? 62) || (ch =? 47) || (ch =? 61) then false
  else if between 0x7F ch 0x9F then false
  else if between 0xFDD0 ch 0xFDEF then false
  else if N.land ch 0xFFFE =? 0xFFFE then false
  else true.

Section Names.
Context {S : Type}.

(** The loops [while (slen > 0) { utf8_to_ucs4; if (!p(ch)) return false; ..}]
    of validate.c:156-170, 199-211, 246-265. *)
Fixpoint chars_loop (fuel : nat) (p : N -> bool) (s : bytes) : M S bool :=
  match s with
  | [] => ret true
  | _ =>
      match fuel with
      | O => stuck OutOfFuel
      | Datatypes.S f =>
          match utf8_to_ucs4 s (length s) with
          | UOk ch n => if p ch then chars_loop f p (skipn n s) else ret false
          | UOob => stuck OutOfBounds
          | _ => ret false
          end
      end
  end.

(** validate.c:131-173 and 223-268 share their shape: length test, first
    character, remaining characters. *)
Definition validate_with (first rest : N -> bool) (name : option bytes) : M S bool :=
  match name with
  | None => ret false
  | Some s =>
      (slen <- string_length s ;;
       if slen =? 0 then ret false
       else match utf8_to_ucs4 s (length s) with
            | UOk ch n => if first ch then chars_loop (length s) rest (skipn n s) else ret false
            | UOob => stuck OutOfBounds
            | _ => ret false
            end)%dom
  end.

(** validate.c:131-173: _dom_validate_name. *)
Definition validate_name (name : option bytes) : M S bool :=
  validate_with is_first_char is_name_char name.

(** validate.c:223-268: _dom_validate_ncname. *)
Definition validate_ncname (name : option bytes) : M S bool :=
  validate_with (fun ch => is_letter ch || (ch =? 95))
                (fun ch => is_name_char ch && negb (ch =? 58)) name.

(** validate.c:178-214: _dom_validate_attribute_name: decodes the first
    character, without using it, then loops from the start. *)
Definition validate_attribute_name (name : option bytes) : M S bool :=
  match name with
  | None => ret false
  | Some s =>
      (slen <- string_length s ;;
       if slen =? 0 then ret false
       else match utf8_to_ucs4 s (length s) with
            | UOk _ _ => chars_loop (length s) is_attribute_name_char s
            | UOob => stuck OutOfBounds
            | _ => ret false
            end)%dom
  end.

(** namespace.c:19-32, 50-57: "xml", "xmlns" and the two reserved namespaces. *)
Definition s_xml : bytes := [120; 109; 108].
Definition s_xmlns : bytes := [120; 109; 108; 110; 115].
(** "http://www.w3.org/XML/1998/namespace" *)
Definition XML_NS : bytes :=
  [104; 116; 116; 112; 58; 47; 47; 119; 119; 119; 46; 119; 51; 46; 111; 114; 103; 47;
   88; 77; 76; 47; 49; 57; 57; 56; 47; 110; 97; 109; 101; 115; 112; 97; 99; 101].
(** "http://www.w3.org/2000/xmlns/" *)
Definition XMLNS_NS : bytes :=
  [104; 116; 116; 112; 58; 47; 47; 119; 119; 119; 46; 119; 51; 46; 111; 114; 103; 47;
   50; 48; 48; 48; 47; 120; 109; 108; 110; 115; 47].

(** namespace.c:129-234: _dom_namespace_validate_qname.  dom_string_isequal is
    equality of the bytes (C35_isequal). *)
Definition validate_qname (qname namespace : option bytes) : M S unit :=
  match qname with
  | None => match namespace with Some _ => raise NAMESPACE_ERR | None => ret tt end
  | Some q =>
      (ok <- validate_name qname ;;
       if negb ok then raise NAMESPACE_ERR
       else
         len <- string_length q ;;
         colon <- string_index q 58 ;;
         if colon =? NOPOS then
           match namespace with
           | Some ns =>
               if bytes_eqb ns XMLNS_NS && negb (bytes_eqb q s_xmlns) then raise NAMESPACE_ERR
               else if bytes_eqb q s_xmlns && negb (bytes_eqb ns XMLNS_NS) then raise NAMESPACE_ERR
               else ret tt
           | None => ret tt
           end
         else if colon =? 0 then
           match namespace with Some _ => raise NAMESPACE_ERR | None => ret tt end
         else
           match namespace with
           | None => raise NAMESPACE_ERR
           | Some ns =>
               prefix <- string_substr q 0 colon ;;
               lname <- string_substr q (u32 (colon + 1)) len ;;
               okp <- validate_ncname (Some prefix) ;;
               (* C evaluates the second call only if the first returns true *)
               okl <- (if okp then validate_ncname (Some lname) else ret false) ;;
               if negb okl then raise NAMESPACE_ERR
               else if bytes_eqb prefix s_xml && negb (bytes_eqb ns XML_NS) then raise NAMESPACE_ERR
               else if bytes_eqb prefix s_xmlns && negb (bytes_eqb ns XMLNS_NS) then raise NAMESPACE_ERR
               else if bytes_eqb ns XMLNS_NS && negb (bytes_eqb prefix s_xmlns) then raise NAMESPACE_ERR
               else ret tt
           end)%dom
  end.

(** namespace.c:249-285: _dom_namespace_split_qname. *)
Definition split_qname (q : bytes) : M S (option bytes * bytes) :=
  (colon <- string_index q 58 ;;
   if colon =? NOPOS then ret (None, q)
   else
     prefix <- string_substr q 0 colon ;;
     len <- string_length q ;;
     lname <- string_substr q (u32 (colon + 1)) len ;;
     ret (Some prefix, lname))%dom.

(** document.c:467-474, 633-640: create_element/create_attribute (the same
    test); html_document.c:898-907, 951-955: no test.  The new node has no
    prefix and the name as it is. *)
Definition create_named (html : bool) (name : bytes) : M S (option bytes * bytes) :=
  if html then ret (None, name)
  else
    (ok <- validate_name (Some name) ;;
     if negb ok then raise INVALID_CHARACTER_ERR else ret (None, name))%dom.

(** document.c:738-773, 803-839: create_element_ns/create_attribute_ns;
    html_document.c:909-935, 981-1007: no test. The result is the prefix and
    local name of the new node. *)
Definition create_named_ns (html : bool) (namespace : option bytes) (qname : bytes)
  : M S (option bytes * bytes) :=
  if html then split_qname qname
  else
    (ok <- validate_name (Some qname) ;;
     if negb ok then raise INVALID_CHARACTER_ERR
     else
       validate_qname (Some qname) namespace ;;;
       split_qname qname)%dom.

(** node.c:363-412: _dom_node_get_node_name, of a node with this prefix and
    name. *)
Definition node_name (n : option bytes * bytes) : M S bytes :=
  match fst n with
  | Some prefix =>
      (temp <- string_concat (Some prefix) (Some [58]) ;;
       string_concat (Some temp) (Some (snd n)))%dom
  | None => ret (snd n)
  end.

End Names.
