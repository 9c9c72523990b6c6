(** Model of src/core/string.c.  A string is its bytes, plus -- where the code
    looks at it -- the flag saying whether it is interned.  Reference counts of
    strings are not modelled and allocation does not fail.
    libwapcaplet (external, trusted) interns: two interned strings are the same
    pointer exactly when their bytes are equal; its caseless comparison is that
    of the ASCII-lower-cased bytes.  No proofs here. *)
From Coq Require Import List Arith NArith Bool.
From Verif Require Import Base Utf8Model.
Import ListNotations.
Local Open Scope N_scope.

(** dom_string_internal, string.c:25-46. *)
Record dstr : Type := mk_dstr { d_interned : bool; d_bytes : bytes }.

(** string.c:48-54: [empty_string], which stands for a NULL argument. *)
Definition empty_string : dstr := mk_dstr false [].
Definition or_empty (s : option dstr) : dstr :=
  match s with Some d => d | None => empty_string end.

(** [(uint32_t) -1] *)
Definition NOPOS : N := 4294967295.

(** string.c:245-250: dolower. *)
Definition dolower (c : N) : N := if (65 <=? c) && (c <=? 90) then c + 97 - 65 else c.

(** string.c:209-236: dom_string_isequal. *)
Definition string_isequal (s1 s2 : option dstr) : bool :=
  let is1 := or_empty s1 in
  let is2 := or_empty s2 in
  if d_interned is1 && d_interned is2
  then (* lwc_string_isequal: pointer equality of interned strings *)
    bytes_eqb (d_bytes is1) (d_bytes is2)
  else if negb (Nat.eqb (length (d_bytes is1)) (length (d_bytes is2))) then false
  else bytes_eqb (d_bytes is1) (d_bytes is2).

(** string.c:288-295: the comparison loop; the lengths are equal. *)
Fixpoint caseless_loop (d1 d2 : bytes) : bool :=
  match d1, d2 with
  | x :: d1', y :: d2' => if dolower x =? dolower y then caseless_loop d1' d2' else false
  | _, _ => true
  end.

(** string.c:259-298: dom_string_caseless_isequal. *)
Definition string_caseless_isequal (s1 s2 : option dstr) : bool :=
  let is1 := or_empty s1 in
  let is2 := or_empty s2 in
  if d_interned is1 && d_interned is2
  then (* lwc_string_caseless_isequal *)
    bytes_eqb (map dolower (d_bytes is1)) (map dolower (d_bytes is2))
  else if negb (Nat.eqb (length (d_bytes is1)) (length (d_bytes is2))) then false
  else caseless_loop (d_bytes is1) (d_bytes is2).

Section Ops.
Context {S : Type}.

(** string.c:393-421: dom_string_index. *)
Fixpoint index_loop (fuel : nat) (s : bytes) (chr index : N) : M S N :=
  match s with
  | [] => ret NOPOS
  | _ =>
      match fuel with
      | O => stuck OutOfFuel
      | Datatypes.S f =>
          match utf8_to_ucs4 s (length s) with
          | UOk c n => if c =? chr then ret index
                       else index_loop f (skipn n s) chr (u32 (index + 1))
          | UOob => stuck OutOfBounds
          | _ => ret NOPOS
          end
      end
  end.
Definition string_index (s : bytes) (chr : N) : M S N := index_loop (length s) s chr 0.

(** string.c:471-486: dom_string_length (0 for malformed strings). *)
Definition string_length (s : bytes) : M S N :=
  match utf8_length (length s) s with
  | None => stuck OutOfFuel
  | Some None => ret 0
  | Some (Some k) => ret (u32 k)
  end.

(** string.c:430-463: dom_string_rindex. *)
Fixpoint rindex_loop (fuel : nat) (s : bytes) (slen clen : nat) (chr index : N) : M S N :=
  match slen with
  | O => ret NOPOS
  | _ =>
      match fuel with
      | O => stuck OutOfFuel
      | Datatypes.S f =>
          let coff := utf8_prev s slen in
          match utf8_to_ucs4 (skipn coff s) (slen - clen) with
          | UOk c n => if c =? chr then ret index
                       else rindex_loop f s (slen - n) n chr (u32 (index + 4294967295))
          | UOob => stuck OutOfBounds
          | _ => ret NOPOS
          end
      end
  end.
Definition string_rindex (s : bytes) (chr : N) : M S N :=
  (index <- string_length s ;; rindex_loop (length s) s (length s) 0 chr index)%dom.

(** string.c:495-532: dom_string_at.  [None] is the return of
    [(uint32_t) -1] as an exception code, which is none of the declared ones.
    Stepping over a truncated last character makes [slen -= clen] wrap and the
    next read leave the buffer: [OutOfBounds]. *)
Fixpoint at_loop (fuel : nat) (s : bytes) (i index : N) : M S (option N) :=
  match s with
  | [] => if i =? u32 (index + 1)
          then (* utf8_to_ucs4(s, 0): NEEDDATA *) ret None
          else raise DOMSTRING_SIZE_ERR
  | b :: _ =>
      match fuel with
      | O => stuck OutOfFuel
      | Datatypes.S f =>
          let clen := char_byte_length b in
          let i' := u32 (i + 1) in
          if i' =? u32 (index + 1)
          then match utf8_to_ucs4 s (length s) with
               | UOk c _ => ret (Some c)
               | UOob => stuck OutOfBounds
               | _ => ret None
               end
          else if Nat.ltb (length s) clen then stuck OutOfBounds
          else at_loop f (skipn clen s) i' index
      end
  end.
Definition string_at (s : bytes) (index : N) : M S (option N) := at_loop (length s) s 0 index.

(** string.c:546-587: dom_string_concat. *)
Definition string_concat (s1 s2 : option bytes) : M S bytes :=
  match s1, s2 with
  | Some a, Some b => ret (a ++ b)
  | _, _ => stuck AssertFail
  end.

(** The loops [while (i > 0) { err = utf8_next(s, slen, b, &b); if (err)
    return DOM_NO_MEM_ERR; i--; }] of string.c:621-639, 688-701, 774-797.  The
    step fails at the end of the string, so [length s + 1] steps are enough. *)
Fixpoint advance (fuel : nat) (s : bytes) (b : nat) (i : N) : M S nat :=
  if i =? 0 then ret b
  else match fuel with
       | O => stuck OutOfFuel
       | Datatypes.S f =>
           match utf8_next s b with
           | None => raise NO_MEM_ERR
           | Some b' => advance f s b' (i - 1)
           end
       end.

(** [i2 -= i1] on uint32_t. *)
Definition sub32 (a b : N) : N := u32 (a + 4294967296 - u32 b).

(** string.c:602-643: dom_string_substr. *)
Definition string_substr (str : bytes) (i1 i2 : N) : M S bytes :=
  (b1 <- advance (length str + 1) str 0 i1 ;;
   b2 <- advance (length str + 1) str b1 (sub32 i2 i1) ;;
   ret (firstn (b2 - b1) (skipn b1 str)))%dom.

(** string.c:663-737: dom_string_insert. *)
Definition string_insert (target source : bytes) (offset : N) : M S bytes :=
  (clen <- string_length target ;;
   if clen <? offset then raise INDEX_SIZE_ERR
   else
     ins <- (if offset =? clen then ret (length target)
             else advance (length target + 1) target 0 offset) ;;
     ret (firstn ins target ++ source ++ skipn ins target))%dom.

(** string.c:756-838: dom_string_replace. *)
Definition string_replace (target source : bytes) (i1 i2 : N) : M S bytes :=
  (b1 <- advance (length target + 1) target 0 i1 ;;
   b2 <- advance (length target + 1) target b1 (sub32 i2 i1) ;;
   ret (firstn b1 target ++ source ++ skipn b2 target))%dom.

(** A NULL first argument of substr, insert and replace stands for the empty
    string (string.c:612, 675, 769); a NULL source is dereferenced. *)
Definition substr_arg (str : option dstr) (i1 i2 : N) : M S bytes :=
  string_substr (d_bytes (or_empty str)) i1 i2.
Definition insert_arg (target source : option dstr) (offset : N) : M S bytes :=
  match source with
  | None => stuck NullDeref
  | Some src => string_insert (d_bytes (or_empty target)) (d_bytes src) offset
  end.
Definition replace_arg (target source : option dstr) (i1 i2 : N) : M S bytes :=
  match source with
  | None => stuck NullDeref
  | Some src => string_replace (d_bytes (or_empty target)) (d_bytes src) i1 i2
  end.

(** string.c:852-867: dom_string_hash. *)
Definition string_hash (s : option dstr) : M S N :=
  match s with
  | None => stuck NullDeref
  | Some d =>
      ret (fold_left (fun hash b => N.lxor (u32 (hash * 16777619)) b) (d_bytes d) 2166136261)
  end.

(** string.c:941-955: the loop of dom_string_toupper. *)
Definition doupper (c : N) : N := if (97 <=? c) && (c <=? 122) then c - (97 - 65) else c.

(** string.c:932-966: dom_string_toupper. *)
Definition string_toupper (source : option dstr) (ascii_only : bool) : M S dstr :=
  match source with
  | None => stuck NullDeref
  | Some d => if negb ascii_only then raise NOT_SUPPORTED_ERR
              else ret (mk_dstr (d_interned d) (map doupper (d_bytes d)))
  end.

(** string.c:978-1031: dom_string_tolower; for interned strings
    lwc_string_tolower, the string itself when it is already lower case. *)
Definition string_tolower (source : option dstr) (ascii_only : bool) : M S dstr :=
  if negb ascii_only then raise NOT_SUPPORTED_ERR
  else match source with
  | None => stuck NullDeref
  | Some d =>
      if d_interned d
      then let l := map dolower (d_bytes d) in
           if bytes_eqb (d_bytes d) l then ret d else ret (mk_dstr true l)
      else ret (mk_dstr false (map dolower (d_bytes d)))
  end.

End Ops.

(** ' ', '\t', '\n', '\r', '\f' *)
Definition is_ws (c : N) : bool :=
  (c =? 32) || (c =? 9) || (c =? 10) || (c =? 13) || (c =? 12).

(** string.c:1060-1069 (and the do-while of 1078-1084). *)
Fixpoint skip_ws (s : bytes) : bytes :=
  match s with
  | c :: r => if is_ws c then skip_ws r else s
  | [] => []
  end.

(** string.c:1071-1091: the copying loop, with the run of whitespace being
    skipped as a flag: a space is written when the run starts. *)
Fixpoint copy_loop (collapse in_run : bool) (s : bytes) : bytes :=
  match s with
  | [] => []
  | c :: r =>
      if collapse && is_ws c
      then if in_run then copy_loop collapse true r
           else 32 :: copy_loop collapse true r
      else c :: copy_loop collapse false r
  end.

(** string.c:1093-1103: on the reversed output, from its end. *)
Definition strip_end (s : bytes) : bytes := rev (skip_ws (rev s)).

(** string.c:1037-1120: dom_string_whitespace_op; the flags are the bits of
    [op].  For an empty string the result of line 1051 is overwritten (and its
    reference leaked); the contents are those computed here. *)
Definition string_whitespace_op {S} (s : option dstr) (leading trailing collapse : bool) : M S dstr :=
  match s with
  | None => stuck NullDeref
  | Some d =>
      let src := if leading then skip_ws (d_bytes d) else d_bytes d in
      let tmp := copy_loop collapse false src in
      ret (mk_dstr (d_interned d) (if trailing then strip_end tmp else tmp))
  end.
