(** The integer and boolean properties of HTML elements that are kept in attributes:
    src/html/html_element.c:362-571.  Definitions only.  Attributes are those of
    AttrModel; dom_string_create of the property's name and of the printed number is
    left out (it succeeds), and so is the failure of malloc.  HTML elements that look
    at a value when it is set (input's default values) are left out with
    dom_element_parse_attribute, see AttrModel. *)
From Coq Require Import List NArith ZArith Bool.
From Verif Require Import Base StringModel NameModel AttrModel.
Import ListNotations.
Local Open Scope dom_scope.

(** ** The C library *)

(** snprintf of a uint32_t with "%u": the decimal digits, at most ten. *)
Fixpoint print_digits (fuel : nat) (n : N) (acc : bytes) : bytes :=
  match fuel with
  | O => acc
  | S f => let acc := (48 + n mod 10)%N :: acc in if (n / 10 =? 0)%N then acc else print_digits f (n / 10)%N acc
  end.
Definition print_u32 (n : N) : bytes := print_digits 10 n [].

(** isspace in the C locale. *)
Definition isspace (c : N) : bool := ((9 <=? c) && (c <=? 13) || (c =? 32))%N.
Fixpoint skip_space (l : bytes) : bytes := match l with c :: r => if isspace c then skip_space r else l | [] => [] end.

(** The value of a digit, 0-9, a-z, A-Z. *)
Definition digit (c : N) : option N :=
  if ((48 <=? c) && (c <=? 57))%N then Some (c - 48)%N
  else if ((97 <=? c) && (c <=? 122))%N then Some (c - 87)%N
  else if ((65 <=? c) && (c <=? 90))%N then Some (c - 55)%N
  else None.
Definition digit_in (b c : N) : bool := match digit c with Some d => (d <? b)%N | None => false end.
Fixpoint read_digits (b : N) (l : bytes) (acc : N) : N :=
  match l with
  | c :: r => match digit c with Some d => if (d <? b)%N then read_digits b r (acc * b + d)%N else acc | None => acc end
  | [] => acc
  end.

(** strtol with base 0: "0x" before a hexadecimal digit means base 16, "0" base 8. *)
Definition read_based (l : bytes) : N :=
  match l with
  | c :: x :: h :: r => if ((c =? 48) && ((x =? 120) || (x =? 88)) && digit_in 16 h)%N then read_digits 16 (h :: r) 0
                        else if (c =? 48)%N then read_digits 8 l 0 else read_digits 10 l 0
  | c :: r => if (c =? 48)%N then read_digits 8 l 0 else read_digits 10 l 0
  | [] => 0%N
  end.
(** A long has 64 bits; a value out of range becomes the nearest. *)
Definition clamp (z : Z) : Z := Z.max (-9223372036854775808) (Z.min 9223372036854775807 z).
Definition strtol0 (l : bytes) : Z :=
  match skip_space l with
  | c :: r => if (c =? 45)%N then clamp (- Z.of_N (read_based r)) else if (c =? 43)%N then clamp (Z.of_N (read_based r)) else clamp (Z.of_N (read_based (c :: r)))
  | [] => 0%Z
  end.

(** The conversion of a long to int32_t. *)
Definition to_int32 (z : Z) : Z := ((z + 2147483648) mod 4294967296 - 2147483648)%Z.

(** _strndup, html_element.c:457-472: up to the first NUL. *)
Fixpoint up_to_nul (l : bytes) : bytes := match l with c :: r => if (c =? 0)%N then [] else c :: up_to_nul r | [] => [] end.

(** ** Properties *)

(** _dom_node_get_text_content of an attribute, node.c:1468-1494, over the values of
    its text children; NULL if there is none with a value. *)
Fixpoint kids_text (str : option bytes) (k : list (option bytes)) : option bytes :=
  match k with
  | [] => str
  | v :: k => kids_text (match str, v with None, _ => v | Some a, Some b => Some (a ++ b) | Some a, None => Some a end) k
  end.
Definition attr_text (a : nat) : M ast (option bytes) := x <- aload a ;; ret (kids_text None (a_kids x)).

(** dom_html_element_get_int32_t_property, html_element.c:485-525; dom_string_data of
    NULL dereferences it. *)
Definition get_int32_property (e : nat) (name : bytes) : M ast Z :=
  a <- get_attr_node e None name ;;
  match a with
  | None => ret (-1)%Z
  | Some a =>
      t <- attr_text a ;;
      match t with
      | None => stuck NullDeref
      | Some t => attr_unref a ;;; ret (to_int32 (strtol0 (up_to_nul t)))
      end
  end.

(** dom_html_element_set_int32_t_property, html_element.c:536-571; the value is a
    uint32_t, so that an int32_t is converted. *)
Definition set_int32_property (junk : bool * N * N) (e : nat) (name : bytes) (v : Z) : M ast unit :=
  set_attr junk e None name (Some (print_u32 (Z.to_N (v mod 4294967296)))).

(** dom_html_element_get_bool_property, html_element.c:371-397. *)
Definition get_bool_property (e : nat) (name : bytes) : M ast bool :=
  a <- get_attr_node e None name ;;
  match a with Some a => attr_unref a ;;; ret true | None => ret false end.

(** dom_html_element_set_bool_property, html_element.c:408-455. *)
Definition unref_opt (a : option nat) : M ast unit := match a with Some a => attr_unref a | None => ret tt end.
Definition set_bool_property (junk : bool * N * N) (e : nat) (name : bytes) (has : bool) : M ast unit :=
  a <- get_attr_node e None name ;;
  match a, has with
  | Some a, false =>
      r <- try (remove_attr_node e None a) ;;
      match r with
      | inl res => attr_unref res ;;; attr_unref a
      | inr ex => attr_unref a ;;; raise ex
      end
  | None, true =>
      x <- eload e ;;
      a <- attr_create junk (e_doc x) name None None ;;
      r <- try (set_attr_node e None a) ;;
      match r with
      | inl res => unref_opt res ;;; attr_unref a
      | inr ex => attr_unref a ;;; raise ex
      end
  | Some a, true => attr_unref a
  | None, false => ret tt
  end.
