(** C60: the text and the index of an OPTION. *)
From Coq Require Import List Arith NArith ZArith Bool.
From Verif Require Import Base HeapModel HeapSpec HistModel TreeSpec WalkSpec HtmlModel HtmlSpec CellSpec OptionModel OptionSpec OptionText OptionIndex OptionWitness.
Import ListNotations.

(** The text has every character of the text below that is not blank, and no other; it
    is there if some text is, and its blanks are single spaces between words. *)
Theorem C60_text_partial : forall j s g e vs, reach j s g -> short j -> type_of (s_heap s) e = Some ELEMENT -> shows (s_heap s) e vs ->
  exists r, option_text e s = Ok r s /\ (r = None <-> vs = []) /\ letters (no_null r) = letters (concat vs) /\ tidy (no_null r) = no_null r.
Proof. exact reach_letters. Qed.
(** It is the text below with its blanks made single spaces if no element below
    begins or ends in a blank, *)
Theorem C60_text_exact_partial : forall j s g e vs, reach j s g -> short j -> type_of (s_heap s) e = Some ELEMENT -> shows (s_heap s) e vs ->
  forall ds, order (s_heap s) e (e :: ds) ->
  (forall i n ws, In i ds -> s_heap s i = Some n -> n_type n = ELEMENT -> ~ script n -> shows (s_heap s) i ws -> trim (concat ws)) ->
  option_text e s = Ok (match vs with [] => None | _ => Some (tidy (concat vs)) end) s.
Proof. exact reach_exact. Qed.
(** but in general words are glued together. *)
Theorem C60_text_refuted : exists j s g e vs b s', reach j s g /\ short j /\ type_of (s_heap s) e = Some ELEMENT /\ shows (s_heap s) e vs /\
  option_text e s = Ok (Some b) s' /\ b <> tidy (concat vs).
Proof. exact glued_case. Qed.

(** The index is the number of options among the siblings before, *)
Theorem C60_index_counts : forall j s g, reach j s g -> briefly j ->
  forall p o a b m, children (s_heap s) p (a ++ o :: b) -> type_of (s_heap s) o = Some ELEMENT -> (N.of_nat (length a) < 2147483648)%N ->
  names_elements s_OPTION (s_heap s) a -> option_count (s_heap s) a m -> option_index o s = Ok (Some (Z.of_nat m)) s.
Proof. exact reach_opt_count. Qed.
(** so it is the position in the options of the select if all of them are its children; *)
Theorem C60_index_partial : forall j s g, reach j s g -> briefly j ->
  forall e k i x l, options (s_heap s) e k -> flat (s_heap s) e k -> children (s_heap s) e l -> plainly_named (s_heap s) l ->
  nth_error k i = Some x -> option_index x s = Ok (Some (Z.of_nat i)) s.
Proof. exact reach_opt_index. Qed.
(** with groups, two options of a select may answer the same index. *)
Theorem C60_index_refuted : exists j s g e k x y i s1 s2, reach j s g /\ briefly j /\ options (s_heap s) e k /\ In x k /\ In y k /\ x <> y /\
  option_index x s = Ok (Some i) s1 /\ option_index y s = Ok (Some i) s2.
Proof. exact group_case. Qed.
(** An option without a parent is a NULL dereference. *)
Theorem C60_detached_refuted : forall s o, parent_of (s_heap s) o = None -> live (s_heap s) o -> option_index o s = Bad NullDeref.
Proof. exact reach_opt_detached. Qed.

Example C60_text_case : reach 37 menu menu_client /\ short 37 /\ type_of (s_heap menu) 4 = Some ELEMENT /\
  shows (s_heap menu) 4 [[32; 120; 32]; [121; 32; 32; 122]]%N /\ order (s_heap menu) 4 [4; 11; 12; 13; 10; 14; 15] /\ trims (s_heap menu) [11; 12; 13; 10; 14; 15].
Proof. exact exact_case. Qed.
Example C60_text_value : tidy (concat [[32; 120; 32]; [121; 32; 32; 122]]%N) = [120; 32; 121; 32; 122]%N.
Proof. reflexivity. Qed.
Example C60_index_case : reach 37 menu menu_client /\ briefly 37 /\ options (s_heap menu) 16 [17; 18] /\ flat (s_heap menu) 16 [17; 18] /\
  children (s_heap menu) 16 [17; 18] /\ plainly_named (s_heap menu) [17; 18] /\ nth_error [17; 18] 1 = Some 18.
Proof. exact index_case. Qed.
Example C60_count_case : reach 37 menu menu_client /\ briefly 37 /\ children (s_heap menu) 3 ([4] ++ 5 :: []) /\ type_of (s_heap menu) 5 = Some ELEMENT /\
  names_elements s_OPTION (s_heap menu) [4] /\ option_count (s_heap menu) [4] 1.
Proof. exact count_case. Qed.

Definition C60_theorems := (C60_text_partial, C60_text_exact_partial, C60_text_refuted, C60_index_counts, C60_index_partial, C60_index_refuted, C60_detached_refuted).
Print Assumptions C60_theorems.
