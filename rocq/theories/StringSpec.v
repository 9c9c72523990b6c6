(** What string operations should do, on sequences of characters: written from
    the definition of UTF-8 and of the DOM, without the model. *)
From Coq Require Import List Arith NArith Bool.
From Verif Require Import Base.
Import ListNotations.
Local Open Scope N_scope.

(** The characters: Unicode scalar values other than the two noncharacters that
    libparserutils refuses. *)
Definition character (c : N) : Prop :=
  c < 1114112 /\ ~ (55296 <= c <= 57343) /\ c <> 65534 /\ c <> 65535.

(** UTF-8 (RFC 3629, section 3). *)
Definition utf8 (c : N) : bytes :=
  if c <? 128 then [c]
  else if c <? 2048 then [192 + c / 64; 128 + c mod 64]
  else if c <? 65536 then [224 + c / 4096; 128 + c / 64 mod 64; 128 + c mod 64]
  else [240 + c / 262144; 128 + c / 4096 mod 64; 128 + c / 64 mod 64; 128 + c mod 64].

(** The string made of these characters. *)
Definition encoded (cs : list N) : bytes := flat_map utf8 cs.

(** Strings libdom can hold: characters only, and less than 2^32 bytes (the
    code computes lengths in uint32_t). *)
Definition text (cs : list N) : Prop :=
  Forall character cs /\ N.of_nat (length (encoded cs)) < two32.

(** Characters [i1] (included) to [i2] (excluded). *)
Definition slice {A} (i1 i2 : nat) (cs : list A) : list A := firstn (i2 - i1) (skipn i1 cs).

(** [i] is the first/last position of [c] in [cs]. *)
Definition first_at (cs : list N) (c : N) (i : nat) : Prop :=
  exists a b, cs = a ++ c :: b /\ length a = i /\ ~ In c a.
Definition last_at (cs : list N) (c : N) (i : nat) : Prop :=
  exists a b, cs = a ++ c :: b /\ length a = i /\ ~ In c b.

(** ASCII case and whitespace. *)
Definition upper_ascii (c : N) : Prop := 65 <= c <= 90.
Definition lower_ascii (c : N) : Prop := 97 <= c <= 122.
Definition same_but_case (x y : N) : Prop :=
  x = y \/ (upper_ascii x /\ y = x + 32) \/ (upper_ascii y /\ x = y + 32).
Definition white (c : N) : Prop := c = 32 \/ c = 9 \/ c = 10 \/ c = 13 \/ c = 12.

(** [t] is [s] with every maximal run of whitespace replaced by one space. *)
Inductive collapsed : bytes -> bytes -> Prop :=
| col_nil : collapsed [] []
| col_char c s t : ~ white c -> collapsed s t -> collapsed (c :: s) (c :: t)
| col_run w s t : w <> [] -> Forall white w ->
    (forall c, hd_error s = Some c -> ~ white c) ->
    collapsed s t -> collapsed (w ++ s) (32 :: t).

(** [t] is [s] without its leading/trailing whitespace. *)
Definition stripped_front (s t : bytes) : Prop :=
  exists w, s = w ++ t /\ Forall white w /\ (forall c, hd_error t = Some c -> ~ white c).
Definition stripped_back (s t : bytes) : Prop :=
  exists w, s = t ++ w /\ Forall white w /\ (forall c, last_error t = Some c -> ~ white c).
