(** Properties C37 and C38: names.  Only theorems about NameModel in the terms
    of NameSpec, and concrete cases. *)
From Coq Require Import List Arith NArith ZArith Bool Lia.
From Verif Require Import Base Utf8Model StringModel StringSpec StringProofs CharModel NameModel NameSpec NameProofs.
Import ListNotations.
Local Open Scope N_scope.

(** ** C38 *)

(** The search finds exactly the code points of the ranges, in each table, for
    every value of the character. *)
Theorem C38_search t ch :
  In t [base_char_range; combining_char_range; digit_char_range; extender_range; ideographic_range] ->
  exists b, in_group ch t = Some b /\ (b = true <-> listed ch t).
Proof. exact (table_ok t ch). Qed.

(** It does so in every sorted table. *)
Theorem C38_search_any_table range ch : sortedb range = true -> range <> [] ->
  exists b, in_group ch range = Some b /\ (b = true <-> listed ch range).
Proof. exact (in_group_ok range ch). Qed.

Theorem C38_classes ch :
  (is_first_char ch = true <-> NameStartChar ch) /\ (is_name_char ch = true <-> NameChar ch).
Proof. exact (conj (is_first_char_iff ch) (is_name_char_iff ch)). Qed.

(** Whatever the bytes, the answer is yes exactly for the UTF-8 form of an XML
    name. *)
Theorem C38_validate_name (s : bytes) : N.of_nat (length s) < two32 ->
  exists b, validate_name (Some s) tt = Ok b tt /\
    (b = true <-> exists cs, s = encoded cs /\ Name cs).
Proof. exact (validate_name_ok s tt). Qed.

Theorem C38_create_element (s : bytes) : N.of_nat (length s) < two32 ->
  ((exists cs, s = encoded cs /\ Name cs) -> create_named false s tt = Ok (None, s) tt) /\
  (~ (exists cs, s = encoded cs /\ Name cs) -> create_named false s tt = Exc INVALID_CHARACTER_ERR tt).
Proof.
  intros L. destruct (validate_name_ok s tt L) as (b & E & H).
  unfold create_named, bind. rewrite E. destruct b; cbn [negb]; split; intros K; try reflexivity.
  - destruct K. apply H. reflexivity.
  - apply H in K. discriminate.
Qed.

(** The namespace variants refuse the same names with the same error. *)
Theorem C38_create_element_ns (s : bytes) ns : N.of_nat (length s) < two32 ->
  ~ (exists cs, s = encoded cs /\ Name cs) -> create_named_ns false ns s tt = Exc INVALID_CHARACTER_ERR tt.
Proof.
  intros L K. destruct (validate_name_ok s tt L) as (b & E & H).
  unfold create_named_ns, bind. rewrite E. destruct b; cbn [negb]; try reflexivity. destruct K. apply H. reflexivity.
Qed.

(** HTML documents test nothing: "<" is an element name there. *)
Theorem C38_html_documents_refuted :
  exists s, ~ (exists cs, s = encoded cs /\ Name cs) /\ create_named true s tt = Ok (None, s) tt.
Proof.
  exists [60]. split; [|reflexivity].
  intros K. destruct (validate_name_ok (St := unit) [60] tt eq_refl) as (b & E & H).
  apply H in K. subst b. vm_compute in E. discriminate.
Qed.

(** The test for the parts of a qualified name: letters of the first editions
    of XML only, at the start. *)
Theorem C38_ncname (s : bytes) : N.of_nat (length s) < two32 ->
  exists b, validate_ncname (Some s) tt = Ok b tt /\
    (b = true <-> exists cs, s = encoded cs /\ CodeNCName cs).
Proof. exact (validate_ncname_ok s tt). Qed.

Theorem C38_ncname_sound cs : CodeNCName cs -> NCName cs.
Proof. exact (CodeNCName_NCName cs). Qed.

(** U+0220 is a name, and has no colon, but it is refused. *)
Theorem C38_ncname_refuted :
  exists cs, text cs /\ NCName cs /\ validate_ncname (Some (encoded cs)) tt = Ok false tt.
Proof.
  exists [0x220]. split; [|split; [split|]].
  - split; [repeat constructor; cbv; intuition discriminate|reflexivity].
  - exists 0x220, []. split; [reflexivity|]. split; [|constructor]. apply listedb_ok. reflexivity.
  - intros [H|H]; [discriminate|destruct H].
  - vm_compute. reflexivity.
Qed.

(** Attribute names: those of the HTML standard and, besides, the characters
    up to U+001F. *)
Theorem C38_attribute_name_partial cs : text cs ->
  exists b, validate_attribute_name (Some (encoded cs)) tt = Ok b tt /\
    (b = true <-> cs <> [] /\ Forall (fun c => AttributeNameChar c \/ c <= 0x1F) cs).
Proof. exact (validate_attribute_name_ok cs tt). Qed.

Theorem C38_attribute_name_refuted :
  exists c, control c /\ validate_attribute_name (Some (encoded [c])) tt = Ok true tt.
Proof. exists 9. split; [left; cbv; discriminate|vm_compute; reflexivity]. Qed.

(** ** C37 *)

(** Splitting a qualified name loses nothing: nodeName puts it together again. *)
Theorem C37_split_join cs : text cs ->
  exists n, split_qname (encoded cs) tt = Ok n tt /\ node_name n tt = Ok (encoded cs) tt.
Proof. exact (split_join cs tt). Qed.

(** The parts are those before and after the first colon. *)
Theorem C37_split_at_first_colon :
  (forall cs, text cs -> ~ In 58 cs ->
     split_qname (encoded cs) tt = Ok (None, encoded cs) tt) /\
  (forall a b, text (a ++ 58 :: b) -> ~ In 58 a ->
     split_qname (encoded (a ++ 58 :: b)) tt = Ok (Some (encoded a), encoded b) tt).
Proof. exact (conj (fun cs => split_none cs tt) (fun a b => split_some a b tt)). Qed.

Theorem C37_created_name ns (s : bytes) n : N.of_nat (length s) < two32 ->
  create_named_ns false ns s tt = Ok n tt -> node_name n tt = Ok s tt.
Proof. exact (create_ns_name ns s n tt). Qed.

(** Reserved prefixes and namespaces. *)
Theorem C37_reserved_partial ns (s : bytes) n : N.of_nat (length s) < two32 ->
  create_named_ns false ns s tt = Ok n tt ->
  (fst n = Some s_xml -> ns = Some XML_NS) /\
  (fst n = Some s_xmlns -> ns = Some XMLNS_NS) /\
  (fst n = None -> snd n = s_xmlns -> ns <> None -> ns = Some XMLNS_NS) /\
  (ns = Some XMLNS_NS -> fst n = Some s_xmlns \/ (fst n = None /\ snd n = s_xmlns)) /\
  (forall p, fst n = Some p -> p <> [] -> ns <> None).
Proof. exact (create_ns_reserved ns s n tt). Qed.

(** The exceptions: "xmlns" without a namespace, and the empty prefix. *)
Theorem C37_xmlns_refuted : create_named_ns false None s_xmlns tt = Ok (None, s_xmlns) tt.
Proof. vm_compute. reflexivity. Qed.

Theorem C37_empty_prefix_refuted :
  exists s l, create_named_ns false None s tt = Ok (Some [], l) tt.
Proof. exists [58; 97], [97]. vm_compute. reflexivity. Qed.

(** HTML documents enforce none of this: "xml:a" in no namespace. *)
Theorem C37_html_reserved_refuted :
  exists s l, create_named_ns true None s tt = Ok (Some s_xml, l) tt.
Proof. exists (s_xml ++ [58; 97]), [97]. vm_compute. reflexivity. Qed.

(** Cases: "p:é" in a namespace, and what is refused. *)
Example qname_case :
  create_named_ns false (Some [117]) (encoded [112; 58; 233]) tt = Ok (Some [112], encoded [233]) tt.
Proof. vm_compute. reflexivity. Qed.

Example qname_text : text [112; 58; 233] /\ Name [112; 58; 233].
Proof.
  split; [split; [repeat constructor; cbv; intuition discriminate|reflexivity]|].
  exists 112, [58; 233]. split; [reflexivity|]. split; [apply listedb_ok; reflexivity|].
  constructor; [|constructor; [|constructor]]; left; apply listedb_ok; reflexivity.
Qed.

Example qname_refused :
  create_named_ns false None (encoded [112; 58; 97]) tt = Exc NAMESPACE_ERR tt /\
  create_named_ns false (Some [117]) (s_xml ++ [58; 97]) tt = Exc NAMESPACE_ERR tt /\
  create_named_ns false (Some XML_NS) (s_xml ++ [58; 97]) tt = Ok (Some s_xml, [97]) tt /\
  create_named_ns false (Some XMLNS_NS) (s_xmlns ++ [58; 97]) tt = Ok (Some s_xmlns, [97]) tt /\
  create_named_ns false (Some XMLNS_NS) [97] tt = Exc NAMESPACE_ERR tt /\
  create_named_ns false (Some [117]) [97; 58; 98; 58; 99] tt = Exc NAMESPACE_ERR tt.
Proof. vm_compute. repeat split. Qed.

Example search_case : in_group 0xF40 base_char_range = Some true /\ in_group 0xF48 base_char_range = Some false.
Proof. vm_compute. split; reflexivity. Qed.

Definition name_theorems :=
  (C38_search, C38_search_any_table, C38_classes, C38_validate_name, C38_create_element, C38_create_element_ns,
   C38_html_documents_refuted, C38_ncname, C38_ncname_sound, C38_ncname_refuted,
   C38_attribute_name_partial, C38_attribute_name_refuted,
   C37_split_join, C37_split_at_first_colon, C37_created_name, C37_reserved_partial,
   C37_xmlns_refuted, C37_empty_prefix_refuted, C37_html_reserved_refuted).
Print Assumptions name_theorems.
