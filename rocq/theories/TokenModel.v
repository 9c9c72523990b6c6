(** Token lists: src/core/tokenlist.c.

    Modelled: one attribute (absent or with a value) of an element that is not
    read-only, and any number of token lists on it, each with its cached entries,
    the size of their array, the value it last wrote and the parse flag.

    Not modelled: allocation failure; reference counts of the lists, of the
    element and of strings; listeners of others on the element (one that stops the
    immediate propagation of DOMAttrModified would keep lists from hearing of
    changes); other attributes. *)
From Coq Require Import List Arith NArith Bool.
From Verif Require Import Base StringModel.
Import ListNotations.
Local Open Scope dom_scope.

(** struct dom_tokenlist, tokenlist.c:27-38 without refcnt, ele, attr and
    listener; len is the length of [t_ents]. *)
Record tlist := mkTlist { t_ents : list bytes; t_alloc : N; t_last : option bytes; t_needs : bool }.
(** The value of the attribute, and the lists by number. *)
Record tst := mkTst { t_value : option bytes; t_lists : list tlist }.

Definition tget (i : nat) : M tst tlist := fun s =>
  match nth_error (t_lists s) i with Some l => Ok l s | None => Bad UseAfterFree end.
Fixpoint replace {A} (i : nat) (x : A) (l : list A) : list A :=
  match l, i with [], _ => [] | _ :: l, O => x :: l | y :: l, S i => y :: replace i x l end.
Definition tput (i : nat) (x : tlist) : M tst unit := fun s => Ok tt (mkTst (t_value s) (replace i x (t_lists s))).

(** dom_string_isequal (C33) takes NULL as the empty string. *)
Definition shown (v : option bytes) : bytes := match v with Some b => b | None => [] end.

(** _dom_tokenlist_handle_attrmodified, tokenlist.c:43-91; the event is about the
    list's attribute. *)
Definition handle (value : option bytes) (l : tlist) : tlist :=
  match t_last l with
  | Some w => if bytes_eqb w (shown value) then l else mkTlist (t_ents l) (t_alloc l) (t_last l) true
  | None => mkTlist (t_ents l) (t_alloc l) (t_last l) true
  end.
(** dom_element_set_attribute, dom_element_remove_attribute and
    dom_element_get_attribute on this attribute (element.c:1597-1850, AttrModel):
    every list hears of a change; a removal of no attribute is none.  An
    attribute that was given NULL reads as the empty string. *)
Definition set_attribute (v : option bytes) : M tst unit := fun s => Ok tt (mkTst (Some (shown v)) (map (handle v) (t_lists s))).
Definition remove_attribute : M tst unit := fun s =>
  match t_value s with None => Ok tt s | Some _ => Ok tt (mkTst None (map (handle None) (t_lists s))) end.
Definition get_attribute : M tst (option bytes) := fun s => Ok (t_value s) s.

(** dom_string_length (string.c:471-486, C34). *)
Definition slen (b : bytes) : M tst nat := fun s =>
  match StringModel.string_length b tt with Ok n _ => Ok (N.to_nat n) s | Exc e _ => Exc e s | Bad b => Bad b end.

(** The two inner loops of the parse, tokenlist.c:142-151 and 178-208: [pos] and
    [remaining] after the bytes that are no space, or are.  The byte after the
    string is NUL; a step over it is out of bounds. *)
Fixpoint over (space : bool) (pos : bytes) (remaining : nat) : option (bytes * bytes * nat) :=
  match remaining with
  | O => Some ([], pos, O)
  | S r =>
      match pos with
      | [] => if space then Some ([], pos, remaining) else None
      | c :: p =>
          if Bool.eqb (c =? 32)%N space then
            match over space p r with Some (t, p', r') => Some (c :: t, p', r') | None => None end
          else Some ([], pos, remaining)
      end
  end.
Definition is_space (pos : bytes) : bool := match pos with [] => false | c :: _ => (c =? 32)%N end.

(** Counting the entries, tokenlist.c:138-152. *)
Fixpoint count (fuel : nat) (pos : bytes) (remaining : nat) : M tst N :=
  match remaining, fuel with
  | O, _ => ret 0%N
  | _, O => stuck OutOfFuel
  | _, S f =>
      if is_space pos then
        match over true pos remaining with None => stuck OutOfBounds | Some (_, p, r) => count f p r end
      else
        match over false pos remaining with None => stuck OutOfBounds | Some (_, p, r) => n <- count f p r ;; ret (u32 (n + 1)) end
  end.
(** Reading them, tokenlist.c:173-213: those not there yet are stored, in an array
    of [alloc]. *)
Fixpoint parse (fuel : nat) (alloc : N) (ents : list bytes) (pos : bytes) (remaining : nat) : M tst (list bytes) :=
  match remaining, fuel with
  | O, _ => ret ents
  | _, O => stuck OutOfFuel
  | _, S f =>
      if is_space pos then
        match over true pos remaining with None => stuck OutOfBounds | Some (_, p, r) => parse f alloc ents p r end
      else
        match over false pos remaining with
        | None => stuck OutOfBounds
        | Some (t, p, r) =>
            if existsb (bytes_eqb t) ents then parse f alloc ents p r
            else if (N.of_nat (length ents) <? alloc)%N then parse f alloc (ents ++ [t]) p r
            else stuck OutOfBounds
        end
  end.

(** _dom_tokenlist_reparse, tokenlist.c:108-219. *)
Definition reparse (i : nat) : M tst unit :=
  l <- tget i ;;
  if negb (t_needs l) then ret tt
  else
    v <- get_attribute ;;
    match v with
    | None => tput i (mkTlist [] (t_alloc l) (t_last l) false)
    | Some b =>
        n <- slen b ;;
        c <- count n b n ;;
        if (c =? 0)%N then tput i (mkTlist [] (t_alloc l) (t_last l) false)
        else
          let alloc := if (t_alloc l <? c)%N then c else t_alloc l in
          e <- parse n alloc [] b n ;;
          tput i (mkTlist e alloc (t_last l) false)
    end.

(** _dom_tokenlist_reify, tokenlist.c:221-266: [memcpy] takes as many bytes as the
    token has characters. *)
Fixpoint total (es : list bytes) : M tst N :=
  match es with [] => ret 0%N | e :: es => n <- slen e ;; m <- total es ;; ret (u32 (N.of_nat n + m)) end.
Fixpoint copies (es : list bytes) : M tst bytes :=
  match es with [] => ret [] | e :: es => n <- slen e ;; r <- copies es ;; ret (firstn n e ++ 32%N :: r) end.
Definition reify (i : nat) : M tst unit :=
  l <- tget i ;;
  match t_ents l with
  | [] =>
      tput i (mkTlist [] (t_alloc l) (Some []) (t_needs l)) ;;;
      set_attribute (Some [])
  | es =>
      n <- total es ;;
      b <- copies es ;;
      (* the buffer has [nchars + len] bytes, the string is one shorter *)
      let room := u32 (n + N.of_nat (length es)) in
      if (room <? N.of_nat (length b))%N then stuck OutOfBounds
      else
        let out := firstn (N.to_nat room - 1) b in
        tput i (mkTlist es (t_alloc l) (Some out) (t_needs l)) ;;;
        set_attribute (Some out)
  end.

(** dom_tokenlist_create, tokenlist.c:284-327. *)
Definition create : M tst nat := fun s => Ok (length (t_lists s)) (mkTst (t_value s) (t_lists s ++ [mkTlist [] 0 None true])).
(** dom_tokenlist_get_length, _dom_tokenlist_item, get_value, set_value,
    tokenlist.c:381-449. *)
Definition get_length (i : nat) : M tst N := reparse i ;;; l <- tget i ;; ret (N.of_nat (length (t_ents l))).
Definition item (i : nat) (index : N) : M tst (option bytes) :=
  reparse i ;;;
  l <- tget i ;;
  if (N.of_nat (length (t_ents l)) <=? index)%N then ret None
  else match nth_error (t_ents l) (N.to_nat index) with Some e => ret (Some e) | None => stuck OutOfBounds end.
Definition get_value (i : nat) : M tst (option bytes) := tget i ;;; get_attribute.
Definition set_value (i : nat) (v : option bytes) : M tst unit := tget i ;;; set_attribute v.
(** dom_tokenlist_contains, tokenlist.c:459-482. *)
Definition contains (i : nat) (t : bytes) : M tst bool :=
  reparse i ;;;
  l <- tget i ;;
  ret (existsb (bytes_eqb t) (t_ents l)).
(** dom_tokenlist_add with _dom_tokenlist_make_room, tokenlist.c:93-106, 490-512. *)
Definition add (i : nat) (t : bytes) : M tst unit :=
  p <- contains i t ;;
  if (p : bool) then ret tt
  else
    l <- tget i ;;
    let alloc := if (N.of_nat (length (t_ents l)) =? t_alloc l)%N then u32 (t_alloc l + 4) else t_alloc l in
    if (N.of_nat (length (t_ents l)) <? alloc)%N then
      tput i (mkTlist (t_ents l ++ [t]) alloc (t_last l) (t_needs l)) ;;;
      reify i
    else stuck OutOfBounds.
(** dom_tokenlist_remove, tokenlist.c:522-549. *)
Fixpoint remove_first (t : bytes) (es : list bytes) : list bytes :=
  match es with [] => [] | e :: es => if bytes_eqb t e then es else e :: remove_first t es end.
Definition remove (i : nat) (t : bytes) : M tst unit :=
  reparse i ;;;
  l <- tget i ;;
  tput i (mkTlist (remove_first t (t_ents l)) (t_alloc l) (t_last l) (t_needs l)) ;;;
  reify i.
