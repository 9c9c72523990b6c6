(** The names of XML and of the DOM, from the recommendations. *)
From Coq Require Import List NArith.
From Verif Require Import Base StringSpec.
Import ListNotations.
Local Open Scope N_scope.

(** XML 1.0 (fifth edition), production [4]: NameStartChar. *)
Definition name_start_ranges : list (N * N) :=
  [(58, 58); (65, 90); (95, 95); (97, 122); (0xC0, 0xD6); (0xD8, 0xF6); (0xF8, 0x2FF);
   (0x370, 0x37D); (0x37F, 0x1FFF); (0x200C, 0x200D); (0x2070, 0x218F); (0x2C00, 0x2FEF);
   (0x3001, 0xD7FF); (0xF900, 0xFDCF); (0xFDF0, 0xFFFD); (0x10000, 0xEFFFF)].

(** Production [4a]: NameChar adds these. *)
Definition name_more_ranges : list (N * N) :=
  [(45, 45); (46, 46); (48, 57); (0xB7, 0xB7); (0x300, 0x36F); (0x203F, 0x2040)].

(** [ch] is in one of the ranges. *)
Definition listed (ch : N) (ranges : list (N * N)) : Prop :=
  exists a b, In (a, b) ranges /\ a <= ch <= b.

Definition NameStartChar (ch : N) : Prop := listed ch name_start_ranges.
Definition NameChar (ch : N) : Prop := listed ch name_start_ranges \/ listed ch name_more_ranges.

(** Production [5]: Name; Namespaces in XML 1.0, production [4]: NCName. *)
Definition Name (cs : list N) : Prop :=
  exists c r, cs = c :: r /\ NameStartChar c /\ Forall NameChar r.
Definition NCName (cs : list N) : Prop := Name cs /\ ~ In 58 cs.

(** The HTML standard's attribute names: one or more characters other than
    controls, space, quotes, '>', '/', '=' and noncharacters. *)
Definition control (ch : N) : Prop := ch <= 0x1F \/ 0x7F <= ch <= 0x9F.
Definition noncharacter (ch : N) : Prop :=
  0xFDD0 <= ch <= 0xFDEF \/ ch mod 65536 = 0xFFFE \/ ch mod 65536 = 0xFFFF.
Definition AttributeNameChar (ch : N) : Prop :=
  ~ control ch /\ ~ noncharacter ch /\ ~ In ch [32; 34; 39; 62; 47; 61].
