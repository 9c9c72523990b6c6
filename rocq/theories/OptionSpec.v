(** Specification of the text and the index of an OPTION. *)
From Coq Require Import List Arith NArith Bool.
From Verif Require Import Base HeapModel HeapSpec HistModel TreeSpec WalkSpec HtmlModel HtmlSpec OptionModel.
Import ListNotations.

(** ** White space *)
(** Space, tab, line feed, carriage return, form feed. *)
Definition white (c : N) : bool := existsb (N.eqb c) [32; 9; 10; 13; 12]%N.
(** The text between two blanks, from the start to the end. *)
Fixpoint pieces (b : bytes) : list bytes :=
  match b with
  | [] => [[]]
  | c :: r =>
      if white c then [] :: pieces r
      else match pieces r with w :: ws => (c :: w) :: ws | [] => [[c]] end
  end.
Definition words (b : bytes) : list bytes := filter (fun w => match w with [] => false | _ => true end) (pieces b).
(** The words with one space between them. *)
Fixpoint spaced (ws : list bytes) : bytes :=
  match ws with
  | [] => []
  | [w] => w
  | w :: r => w ++ 32%N :: spaced r
  end.
Definition tidy (b : bytes) : bytes := spaced (words b).
(** What remains without blanks. *)
Definition letters (b : bytes) : bytes := filter (fun c => negb (white c)) b.
(** No blank at the start or at the end. *)
Definition trim (b : bytes) : Prop := (forall c r, b = c :: r -> white c = false) /\ (forall c r, b = r ++ [c] -> white c = false).

(** ** Text *)
(** A script of the HTML or the SVG namespace. *)
Definition script (n : node) : Prop :=
  fold_case true (no_null (n_name n)) = s_script /\
  (fold_case true (no_null (n_ns n)) = html_space \/ fold_case true (no_null (n_ns n)) = svg_space).

(** [vs] is the text of the nodes [l] and of what is below them, in document order;
    that of comments, processing instructions and scripts is left out. *)
Inductive shown (h : heap) : list id -> list bytes -> Prop :=
| sh_nil : shown h [] []
| sh_text i n v l vs : h i = Some n -> n_type n = TEXT \/ n_type n = CDATA -> n_value n = Some v -> shown h l vs -> shown h (i :: l) (v :: vs)
| sh_null i n l vs : h i = Some n -> n_type n = TEXT \/ n_type n = CDATA -> n_value n = None -> shown h l vs -> shown h (i :: l) vs
| sh_skip i n l vs : h i = Some n -> n_type n = COMMENT \/ n_type n = PI \/ n_type n = ELEMENT /\ script n -> shown h l vs -> shown h (i :: l) vs
| sh_inside i n k ws l vs : h i = Some n -> n_type n = ELEMENT -> ~ script n -> children h i k -> shown h k ws -> shown h l vs ->
    shown h (i :: l) (ws ++ vs).
(** The text of an element. *)
Definition shows (h : heap) (i : id) (vs : list bytes) : Prop := exists l, children h i l /\ shown h l vs.

(** ** Index *)
(** [m] options are among [l]. *)
Definition option_count (h : heap) (l : list id) (m : nat) : Prop :=
  exists k, picks (fun i => exists n, h i = Some n /\ has_tag true s_OPTION n) l k /\ length k = m.
(** Among [l], only elements are called OPTION, and in capitals. *)
Definition plainly_named (h : heap) (l : list id) : Prop :=
  forall x n b, In x l -> h x = Some n -> n_name n = Some b -> fold_case true b = fold_case true s_OPTION -> n_type n = ELEMENT /\ b = s_OPTION.
