(** Model of the text and the index of an OPTION, src/html/html_option_element.c.
    Documents are HTML documents, and the namespaces have been set up
    (namespace.c:45-98). Definitions only. *)
From Coq Require Import List Arith NArith ZArith Bool.
From Verif Require Import Base HeapModel StringModel WalkModel HtmlModel.
Import ListNotations.
Local Open Scope dom_scope.

(** script_string, document.c:176-178, and the namespaces of namespace.c:24-32. *)
Definition s_script : bytes := [115; 99; 114; 105; 112; 116]%N.
Definition html_space : bytes :=
  [104;116;116;112;58;47;47;119;119;119;46;119;51;46;111;114;103;47;49;57;57;57;47;120;104;116;109;108]%N.
Definition svg_space : bytes :=
  [104;116;116;112;58;47;47;119;119;119;46;119;51;46;111;114;103;47;50;48;48;48;47;115;118;103]%N.

(** The test for a script, html_option_element.c:180-203. *)
Definition skipped (n : node) : bool :=
  caseless_isequal (n_name n) (Some s_script) &&
  (caseless_isequal (n_ns n) (Some html_space) || caseless_isequal (n_ns n) (Some svg_space)).

(** "If we already have text, concatenate it", html_option_element.c:216-223. *)
Definition add_text (str r : option bytes) : option bytes :=
  match str, r with
  | None, _ => r
  | Some a, Some b => Some (a ++ b)
  | Some a, None => Some a
  end.

(** The loop over the children, html_option_element.c:171-224; [rec] is the call for a
    child that is an element. *)
Fixpoint option_loop (fuel : nat) (rec : id -> M st (option bytes)) (c : option id) (str : option bytes) : M st (option bytes) :=
  match c with
  | None => ret str
  | Some i =>
      match fuel with
      | O => stuck OutOfFuel
      | S f =>
          n <- load i ;;
          str' <- match n_type n with
                  | COMMENT | PI => ret str
                  | ELEMENT => if skipped n then ret str else r <- rec i ;; ret (add_text str r)
                  | _ => r <- get_text_content i ;; ret (add_text str r)
                  end ;;
          option_loop f rec (n_next n) str'
      end
  end.

(** dom_html_option_element_get_text_node, html_option_element.c:155-234. *)
Fixpoint option_text_at (fuel : nat) (i : id) : M st (option bytes) :=
  match fuel with
  | O => stuck OutOfFuel
  | S f =>
      n <- load i ;;
      assert_ (negb (is_none (n_owner n))) ;;;
      str <- with_fuel (fun g => option_loop g (option_text_at f) (n_first n) None) ;;
      match str with
      | None => ret None
      | Some b => t <- string_whitespace_op (Some (mk_dstr false b)) true true true ;; ret (Some (d_bytes t))
      end
  end.
(** dom_html_option_element_get_text, html_option_element.c:243-248. *)
Definition option_text (i : id) : M st (option bytes) := with_fuel (fun f => option_text_at f i).

(** The loop of dom_html_option_element_get_index, html_option_element.c:264-271;
    [None] when the index is not written. *)
Fixpoint index_from (fuel : nat) (o : id) (c : option id) (idx : N) : M st (option Z) :=
  match c with
  | None => ret None
  | Some i =>
      if Nat.eqb i o then ret (Some (as_i32 idx))
      else
        match fuel with
        | O => stuck OutOfFuel
        | S f =>
            n <- load i ;;
            index_from f o (n_next n) (if caseless_isequal (n_name n) (Some s_OPTION) then u32 (idx + 1) else idx)
        end
  end.
(** dom_html_option_element_get_index, html_option_element.c:257-274. *)
Definition option_index (o : id) : M st (option Z) :=
  n <- load o ;;
  p <- deref (n_parent n) ;;
  html_doc o ;;;
  np <- load p ;;
  with_fuel (fun f => index_from f o (n_first np) 0%N).
