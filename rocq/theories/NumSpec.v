(** What the properties of an element should read and write. *)
From Coq Require Import List NArith ZArith Bool.
From Verif Require Import Base StringModel NameModel AttrModel AttrSpec.
Import ListNotations.
Local Open Scope N_scope.

(** The text of the attribute that a name means: [None] if the element has none,
    [Some None] if its value was never set. *)
Definition written (Q : attrs) (e : nat) (n : bytes) : option (option bytes) :=
  match q_el Q e with
  | None => None
  | Some y => match entry None n (q_ents y) with
              | None => None
              | Some m => match q_at Q (l_attr m) with Some x => Some (hd None (a_kids x)) | None => None end
              end
  end.

(** ** Numbers as text *)

Definition blank (c : N) : Prop := 9 <= c <= 13 \/ c = 32.
(** A digit and its value. *)
Inductive digit_is : N -> N -> Prop :=
| d_number c : 48 <= c <= 57 -> digit_is c (c - 48)
| d_lower c : 97 <= c <= 122 -> digit_is c (c - 97 + 10)
| d_upper c : 65 <= c <= 90 -> digit_is c (c - 65 + 10).
(** The digits [ds] in base [b] have the value [v]; most significant first. *)
Inductive digits (b : N) : bytes -> N -> Prop :=
| ds_none : digits b [] 0
| ds_more ds v c d : digits b ds v -> digit_is c d -> d < b -> digits b (ds ++ [c]) (v * b + d).
(** The text goes on with something that is no digit in base [b]. *)
Definition stops (b : N) (rest : bytes) : Prop := forall c d, hd_error rest = Some c -> digit_is c d -> b <= d.

(** The decimal notation of a number: no zero in front. *)
Definition decimal (ds : bytes) (v : N) : Prop := digits 10 ds v /\ ds <> [] /\ (hd_error ds = Some 48 -> ds = [48]).

(** Numerals as C writes them, with their base. *)
Inductive numeral : N -> bytes -> N -> Prop :=
| n_decimal ds v : digits 10 ds v -> ds <> [] -> hd_error ds <> Some 48 -> numeral 10 ds v
| n_zero : numeral 8 [48] 0
| n_octal ds v : digits 8 ds v -> ds <> [] -> numeral 8 (48 :: ds) v
| n_hex x ds v : x = 120 \/ x = 88 -> digits 16 ds v -> ds <> [] -> numeral 16 (48 :: x :: ds) v.
(** What follows a numeral does not belong to it. *)
Definition ends (b : N) (ds rest : bytes) : Prop := stops b rest /\ (ds = [48] -> hd_error rest <> Some 120 /\ hd_error rest <> Some 88).

Inductive sign : bytes -> Z -> Z -> Prop :=
| s_none z : sign [] z z
| s_plus z : sign [43] z z
| s_minus z : sign [45] z (- z).

(** A long keeps the nearest value it has, an int32_t the last 32 bits. *)
Definition as_long (z : Z) : Z := if (z <? - 2 ^ 63)%Z then (- 2 ^ 63)%Z else if (2 ^ 63 <=? z)%Z then (2 ^ 63 - 1)%Z else z.
Definition int32 (z : Z) : Prop := (- 2 ^ 31 <= z < 2 ^ 31)%Z.
Definition same_bits (z w : Z) : Prop := ((z - w) mod 2 ^ 32 = 0)%Z.

(** At most one attribute of the element has this local name. *)
Definition single (Q : attrs) (e : nat) (n : bytes) : Prop :=
  forall y a b, q_el Q e = Some y -> In a (q_ents y) -> In b (q_ents y) -> l_name a = n -> l_name b = n -> a = b.
(** Attributes of this local name have no prefix. *)
Definition unprefixed (Q : attrs) (e : nat) (n : bytes) : Prop :=
  forall y m x, q_el Q e = Some y -> In m (q_ents y) -> l_name m = n -> q_at Q (l_attr m) = Some x -> a_prefix x = None.
(** A state whose attribute calls answer as those of another. *)
Definition answers_as (Q : attrs) (s s' : ast) : Prop := forall o, alegal Q o -> answer (aexec o s') = answer (aexec o s).
