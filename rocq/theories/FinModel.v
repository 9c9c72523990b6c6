(** Model of the destruction of HTML documents: the node heap with, for every HTML
    document, the strings it holds and the tables of names it allocates. *)
From Coq Require Import List Arith NArith Bool.
From Verif Require Import Base HeapModel.
Import ListNotations.
Local Open Scope dom_scope.

Definition sid := nat.
(** [x_tables d]: memoised and elements of the HTML document [d] are allocated,
    html_document.h:32-34; [x_strings d]: those of cookie, url, domain, referrer and
    title that are not NULL; [x_count c]: the reference count of a string, 0 once it is freed. *)
Record ext : Type := mkExt { x_tables : id -> bool; x_strings : id -> list sid; x_count : sid -> N }.
Definition hst : Type := st * ext.
Definition lift {A} (m : M st A) : M hst A := fun sx =>
  match m (fst sx) with Ok a s' => Ok a (s', snd sx) | Exc e s' => Exc e (s', snd sx) | Bad b => Bad b end.
Definition hstuck {A} (b : bad) : M hst A := fun _ => Bad b.
Definition hwhen (b : bool) (m : M hst unit) : M hst unit := if b then m else ret tt.

(** dom_string_unref, include/dom/core/string.h:75-80, and its destructor. *)
Definition str_unref (c : sid) : M hst unit := fun sx =>
  let x := snd sx in
  if N.eqb (x_count x c) 0 then Bad UseAfterFree
  else Ok tt (fst sx, mkExt (x_tables x) (x_strings x) (fun j => if Nat.eqb j c then (x_count x c - 1)%N else x_count x j)).
Fixpoint strs_unref (l : list sid) : M hst unit :=
  match l with [] => ret tt | c :: r => str_unref c ;;; strs_unref r end.
(** _dom_html_document_finalise up to the call of _dom_document_finalise,
    html_document.c:199-236: the strings are released and not forgotten, the tables
    are released and set to NULL. *)
Definition html_finalise (d : id) : M hst unit := fun sx =>
  (strs_unref (x_strings (snd sx) d) ;;;
   (fun sx => Ok tt (fst sx, mkExt (fun j => if Nat.eqb j d then false else x_tables (snd sx) j) (x_strings (snd sx)) (x_count (snd sx))))) sx.

(** The functions of HeapModel, with _dom_html_document_destroy (html_document.c:240-246)
    as the destructor of documents: node.c:2304-2320, 254-260, document.c:1568-1574,
    node.c:224-298, element.c:276-304 and 363-380. *)
Definition htry_destroy_with (destroy : id -> M hst unit) (i : id) : M hst unit :=
  n <- lift (load i) ;;
  match n_parent n with
  | Some _ => ret tt
  | None =>
      if N.eqb (n_ref n) 0 then destroy i
      else if n_pending n then ret tt
      else d <- lift (deref (n_owner n)) ;; lift (pend_append d i)
  end.
Fixpoint hfin_children (fuel : nat) (destroy : id -> M hst unit) (p : option id) : M hst unit :=
  match p with
  | None => ret tt
  | Some c =>
      match fuel with
      | O => hstuck OutOfFuel
      | S f =>
          n <- lift (load c) ;;
          lift (upd c (set_parent None)) ;;;
          htry_destroy_with destroy c ;;;
          hfin_children f destroy (n_next n)
      end
  end.
Definition hdoc_try_destroy_with (destroy : id -> M hst unit) (d : id) : M hst unit :=
  n <- lift (load d) ;;
  if negb (N.eqb (n_ref n) 0) || negb (is_none (n_parent n)) then ret tt else destroy d.
Definition hfinalise_with (fuel : nat) (destroy : id -> M hst unit) (i : id) : M hst unit :=
  n <- lift (load i) ;;
  hfin_children fuel destroy (n_first n) ;;;
  lift (upd i clear_node) ;;;
  n <- lift (load i) ;;
  if n_pending n then
    d <- lift (deref (n_owner n)) ;;
    lift (pend_del d i) ;;;
    hwhen (negb (ntype_eqb (n_type n) DOCUMENT)) (hdoc_try_destroy_with destroy d)
  else ret tt.
Fixpoint hattrs_destroy (destroy : id -> M hst unit) (l : list id) : M hst unit :=
  match l with
  | [] => ret tt
  | a :: r =>
      na <- lift (load a) ;;
      d <- lift (deref (n_owner na)) ;;
      lift (load d) ;;;
      lift match n_ns na, n_name na with
           | None, Some nm =>
               if bytes_eqb nm class_string
               then e <- deref (n_parent na) ;; upd e (set_classes []) else ret tt
           | _, _ => ret tt
           end ;;;
      lift (upd a (set_parent None)) ;;;
      htry_destroy_with destroy a ;;;
      hattrs_destroy destroy r
  end.
Fixpoint hdestroy (fuel : nat) (i : id) : M hst unit :=
  match fuel with
  | O => hstuck OutOfFuel
  | S f =>
      n <- lift (load i) ;;
      match n_type n with
      | DOCUMENT =>
          html_finalise i ;;;
          hfinalise_with f (hdestroy f) i ;;;
          n' <- lift (load i) ;;
          match n_pend n' with
          | [] => lift (free i)
          | _ => ret tt
          end
      | ELEMENT =>
          hattrs_destroy (hdestroy f) (n_attrs n) ;;;
          lift (upd i (fun n => set_classes [] (set_attrs [] n))) ;;;
          hfinalise_with f (hdestroy f) i ;;;
          lift (free i)
      | _ => hfinalise_with f (hdestroy f) i ;;; lift (free i)
      end
  end.
Definition htry_destroy (i : id) : M hst unit := fun sx => htry_destroy_with (hdestroy (fuel_of (fst sx))) i sx.
(** dom_node_unref, include/dom/core/node.h:195-202. *)
Definition html_unref (i : id) : M hst unit :=
  lift (upd i (fun n => set_ref (u32 (n_ref n + (two32 - 1))) n)) ;;;
  n <- lift (load i) ;;
  hwhen (N.eqb (n_ref n) 0) (htry_destroy i).

(** What every accessor of a string attribute of an HTML element begins with, as in
    html_form_element.c:206-221: the name is read from the tables of the document. *)
Definition known_name (e : id) : M hst unit := fun sx =>
  (n <- lift (load e) ;;
   d <- lift (deref (n_owner n)) ;;
   lift (load d) ;;;
   (fun sx => if x_tables (snd sx) d then Ok tt sx else Bad NullDeref)) sx.
