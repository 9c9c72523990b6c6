(** The libparserutils UTF-8 helpers that string.c relies on.  libparserutils is
    an external dependency that is not in /repo: these definitions are part of
    the trusted base.  They follow its documented behaviour
    (parserutils/charset/utf8.h): a character takes 1 to 6 bytes, according to
    its first byte; overlong forms, surrogates, U+FFFE and U+FFFF are invalid.
    Simplification: bit masks on bytes are written as ranges and remainders,
    [c << 6 | (t & 0x3f)] as [c * 64 + t mod 64].  No proofs here. *)
From Coq Require Import List Arith NArith Bool.
From Verif Require Import Base.
Import ListNotations.
Local Open Scope N_scope.

(** [(b & 0xC0) == 0x80]: a continuation byte. *)
Definition contb (b : N) : bool := (128 <=? b) && (b <? 192).

(** Payload bits, number of bytes and smallest value of the class of a first
    byte (parserutils_charset_utf8_to_ucs4, _length). *)
Definition lead (b : N) : option (N * nat * N) :=
  if b <? 128 then Some (b, 1%nat, 0)
  else if b <? 192 then None
  else if b <? 224 then Some (b mod 32, 2%nat, 128)
  else if b <? 240 then Some (b mod 16, 3%nat, 2048)
  else if b <? 248 then Some (b mod 8, 4%nat, 65536)
  else if b <? 252 then Some (b mod 4, 5%nat, 2097152)
  else if b <? 254 then Some (b mod 2, 6%nat, 67108864)
  else None.

Inductive ures : Type :=
| UOk (c : N) (n : nat)  (** PARSERUTILS_OK: the character and its length *)
| UNeed                  (** PARSERUTILS_NEEDDATA *)
| UInvalid               (** PARSERUTILS_INVALID *)
| UOob.                  (** a read past the end of the buffer *)

Fixpoint continuations (n : nat) (s : bytes) (acc : N) : ures :=
  match n, s with
  | O, _ => UOk acc 0
  | S _, [] => UOob
  | S n', t :: s' =>
      if contb t then continuations n' s' (acc * 64 + t mod 64) else UInvalid
  end.

(** Not a character, whatever its encoding. *)
Definition forbidden (c : N) : bool :=
  ((55296 <=? c) && (c <=? 57343)) || (c =? 65534) || (c =? 65535).

(** parserutils_charset_utf8_to_ucs4(s, len, &c, &clen): [s] is the buffer from
    the given pointer on, [len] the length the caller passes. *)
Definition utf8_to_ucs4 (s : bytes) (len : nat) : ures :=
  if Nat.eqb len 0 then UNeed
  else match s with
       | [] => UOob
       | b :: r =>
           match lead b with
           | None => UInvalid
           | Some (v, n, least) =>
               if Nat.ltb len n then UNeed
               else match continuations (n - 1) r v with
                    | UOk c _ => if (c <? least) || forbidden c then UInvalid else UOk c n
                    | e => e
                    end
           end
       end.

(** parserutils_charset_utf8_length(s, len, &clen): steps by first bytes,
    without looking at the continuation bytes; [None] is PARSERUTILS_INVALID.
    The fuel bounds the number of characters. *)
Fixpoint utf8_length (fuel : nat) (s : bytes) : option (option N) :=
  match s with
  | [] => Some (Some 0)
  | b :: _ =>
      match fuel with
      | O => None
      | S f =>
          match lead b with
          | None => Some None
          | Some (_, n, _) =>
              match utf8_length f (skipn n s) with
              | Some (Some k) => Some (Some (k + 1))
              | r => r
              end
          end
      end
  end.

(** parserutils_charset_utf8_char_byte_length(s, &clen): from a table indexed
    by the first byte, which gives 1 for bytes that start nothing. *)
Definition char_byte_length (b : N) : nat :=
  match lead b with
  | Some (_, n, _) => n
  | None => if b <? 192 then 1%nat else 6%nat
  end.

(** Number of continuation bytes at the front of [s]. *)
Fixpoint run_of_cont (s : bytes) : nat :=
  match s with
  | b :: r => if contb b then S (run_of_cont r) else O
  | [] => O
  end.

(** parserutils_charset_utf8_next(s, len, off, &off'): [None] is
    PARSERUTILS_BADPARM; [while (++off < len && (s[off] & 0xC0) == 0x80);] *)
Definition utf8_next (s : bytes) (off : nat) : option nat :=
  if Nat.leb (length s) off then None
  else Some (S off + run_of_cont (skipn (S off) s))%nat.

(** parserutils_charset_utf8_prev(s, off, &off'):
    [while (off != 0 && (s[--off] & 0xC0) == 0x80);] *)
Fixpoint utf8_prev (s : bytes) (off : nat) : nat :=
  match off with
  | O => O
  | S o => if contb (nth o s 0) then utf8_prev s o else o
  end.
