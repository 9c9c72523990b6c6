(** Character data and text nodes: src/core/characterdata.c and src/core/text.c,
    on the node heap.  Strings are byte strings; StringModel has the functions of
    src/core/string.c.  Definitions only. *)
From Coq Require Import List Arith NArith Bool.
From Verif Require Import Base Utf8Model StringModel HeapModel.
Import ListNotations.
Local Open Scope dom_scope.

(** __dom_dispatch_characterdata_modified_event, dispatch.c:176-206. *)
Definition data_event (doc : option id) (i : id) (prev new : option bytes) : M st unit :=
  d <- deref doc ;; load d ;;; fire (EvData i prev new).

(** __dom_dispatch_subtree_modified_event on a parent that may be NULL, dispatch.c:216-246. *)
Definition parent_event (doc p : option id) : M st unit :=
  match p with None => ret tt | Some p => subtree_event doc p end.

(** The common end of the editing functions (characterdata.c:134-151, 245-264,
    309-325, 380-394, 443-457): announce the change, store, announce it at the
    parent.  (The string leaked when a listener fails is not modelled: listeners
    do not run.) *)
Definition store_data (i : id) (new : option bytes) : M st unit :=
  n <- load i ;;
  data_event (n_owner n) i (n_value n) new ;;;
  upd i (set_value new) ;;;
  n' <- load i ;;
  parent_event (n_owner n) (n_parent n').

(** A string argument for StringModel. *)
Definition dstring (v : option bytes) : option dstr := option_map (mk_dstr false) v.

(** _dom_characterdata_get_data, characterdata.c:99-109. *)
Definition get_data (i : id) : M st (option bytes) := n <- load i ;; ret (n_value n).

(** _dom_characterdata_set_data, characterdata.c:124-152. *)
Definition set_data (i : id) (data : option bytes) : M st unit :=
  ro <- readonly i ;;
  check (negb ro) NO_MODIFICATION_ALLOWED_ERR ;;;
  store_data i data.

(** _dom_characterdata_get_length, characterdata.c:161-174. *)
Definition data_length (i : id) : M st N :=
  n <- load i ;;
  match n_value n with Some v => string_length v | None => ret 0%N end.

(** [(int32_t) x < 0] for a uint32_t. *)
Definition negative (x : N) : bool := (2147483648 <=? x)%N.

(** characterdata.c:213, 369, 437: [end = (offset + count) >= len ? len : offset + count] on uint32_t. *)
Definition range_end (offset count len : N) : N :=
  if (len <=? u32 (offset + count))%N then len else u32 (offset + count).

(** _dom_characterdata_substring_data, characterdata.c:194-216. *)
Definition substring_data (i : id) (offset count : N) : M st bytes :=
  check (negb (negative offset || negative count)) INDEX_SIZE_ERR ;;;
  len <- data_length i ;;
  check (offset <=? len)%N INDEX_SIZE_ERR ;;;
  n <- load i ;;
  substr_arg (dstring (n_value n)) offset (range_end offset count len).

(** _dom_characterdata_append_data, characterdata.c:228-264. *)
Definition append_data (i : id) (data : option bytes) : M st unit :=
  ro <- readonly i ;;
  check (negb ro) NO_MODIFICATION_ALLOWED_ERR ;;;
  n <- load i ;;
  temp <- string_concat (n_value n) data ;;
  store_data i (Some temp).

(** _dom_characterdata_insert_data, characterdata.c:277-325. *)
Definition insert_data (i : id) (offset : N) (data : option bytes) : M st unit :=
  ro <- readonly i ;;
  check (negb ro) NO_MODIFICATION_ALLOWED_ERR ;;;
  check (negb (negative offset)) INDEX_SIZE_ERR ;;;
  len <- data_length i ;;
  check (offset <=? len)%N INDEX_SIZE_ERR ;;;
  n <- load i ;;
  temp <- insert_arg (dstring (n_value n)) (dstring data) offset ;;
  store_data i (Some temp).

(** _dom_characterdata_delete_data, characterdata.c:339-394.  The empty string is
    read from the owner document. *)
Definition delete_data (i : id) (offset count : N) : M st unit :=
  ro <- readonly i ;;
  check (negb ro) NO_MODIFICATION_ALLOWED_ERR ;;;
  check (negb (negative offset || negative count)) INDEX_SIZE_ERR ;;;
  len <- data_length i ;;
  check (offset <=? len)%N INDEX_SIZE_ERR ;;;
  n <- load i ;;
  d <- deref (n_owner n) ;;
  load d ;;;
  temp <- replace_arg (dstring (n_value n)) (Some empty_string) offset (range_end offset count len) ;;
  store_data i (Some temp).

(** _dom_characterdata_replace_data, characterdata.c:408-457. *)
Definition replace_data (i : id) (offset count : N) (data : option bytes) : M st unit :=
  ro <- readonly i ;;
  check (negb ro) NO_MODIFICATION_ALLOWED_ERR ;;;
  check (negb (negative offset || negative count)) INDEX_SIZE_ERR ;;;
  len <- data_length i ;;
  check (offset <=? len)%N INDEX_SIZE_ERR ;;;
  n <- load i ;;
  temp <- replace_arg (dstring (n_value n)) (dstring data) offset (range_end offset count len) ;;
  store_data i (Some temp).

(** ** Text nodes *)

(** _dom_text_split_text, text.c:180-230, with _dom_text_create (text.c:79-101):
    the new node takes owner and name from the old one, and is of type TEXT. *)
Definition split_text (i : id) (offset : N) : M st id :=
  ro <- readonly i ;;
  check (negb ro) NO_MODIFICATION_ALLOWED_ERR ;;;
  len <- data_length i ;;
  check (negb (len <=? offset)%N) INDEX_SIZE_ERR ;;;
  value <- substring_data i offset (sub32 len offset) ;;
  n <- load i ;;
  r <- create_node (n_owner n) TEXT (n_name n) (Some value) None None ;;
  e <- try (delete_data i offset (sub32 len offset)) ;;
  match e with
  | inl _ => ret r
  | inr x => node_unref r ;;; raise x
  end.

Inductive side := LEFT | RIGHT.
Inductive task := COLLECT | DELETE.

(** text.c:420-423 and 433-436: climb while the parent is not [top] and the node
    is its last (going left) or first (going right) child. *)
Fixpoint adj_climb (fuel : nat) (sd : side) (top : option id) (cur : id) (p : option id) : M st id :=
  match fuel with
  | O => stuck OutOfFuel
  | S f =>
      if oid_eqb p top then ret cur
      else
        q <- deref p ;;
        nq <- load q ;;
        if oid_eqb (match sd with LEFT => n_last nq | RIGHT => n_first nq end) (Some cur)
        then adj_climb f sd top q (n_parent nq) else ret cur
  end.

(** walk_logic_adjacent_text_in_order, text.c:349-447: the loop.  [acc] is *ret. *)
Fixpoint adj_loop (fuel : nat) (sd : side) (tk : task) (top : option id) (cur : option id) (acc : option bytes)
  : M st (option bytes) :=
  match cur with
  | None => ret acc
  | Some i =>
      match fuel with
      | O => stuck OutOfFuel
      | S f =>
          n <- load i ;;
          match n_type n with
          | ELEMENT | COMMENT | PI => ret acc
          | TEXT =>
              assert_ (is_none (n_first n)) ;;;
              assert_ (is_none (n_last n)) ;;;
              match tk with
              | COLLECT =>
                  match acc with
                  | None => ret (n_value n)
                  | Some t =>
                      v <- (match sd with LEFT => string_concat (n_value n) (Some t) | RIGHT => string_concat (Some t) (n_value n) end) ;;
                      ret (Some v)
                  end
              | DELETE =>
                  p <- deref (n_parent n) ;;
                  x <- remove_child p i ;;
                  node_unref x ;;;
                  ret acc
              end
          | _ =>
              match (match sd with LEFT => n_last n | RIGHT => n_first n end),
                    (match sd with LEFT => n_prev n | RIGHT => n_next n end) with
              | Some c, _ => adj_loop f sd tk top (Some c) acc
              | None, Some x => adj_loop f sd tk top (Some x) acc
              | None, None =>
                  j <- adj_climb f sd top i (n_parent n) ;;
                  nj <- load j ;;
                  adj_loop f sd tk top (match sd with LEFT => n_prev nj | RIGHT => n_next nj end) acc
              end
          end
      end
  end.

(** walk_logic_adjacent_text_in_order, text.c:349-372: NULL is left alone, and the
    climbs stop below the parent of the start node. *)
Definition adj_walk (sd : side) (tk : task) (start : option id) (acc : option bytes) : M st (option bytes) :=
  match start with
  | None => ret acc
  | Some i => n <- load i ;; with_fuel (fun f => adj_loop f sd tk (n_parent n) start acc)
  end.

(** walk_logic_adjacent_text, text.c:459-537. *)
Definition adj_text (i : id) (tk : task) : M st (option bytes) :=
  n <- load i ;;
  match n_parent n with
  | Some p => np <- load p ;; check (negb (ntype_eqb (n_type np) ENTITY)) NOT_SUPPORTED_ERR
  | None => ret tt
  end ;;;
  acc <- adj_walk LEFT tk (n_prev n) None ;;
  acc <- (match tk with
          | COLLECT =>
              n' <- load i ;;
              match acc with
              | Some t => v <- string_concat (Some t) (n_value n') ;; ret (Some v)
              | None => ret (n_value n')
              end
          | DELETE =>
              n' <- load i ;;
              p <- deref (n_parent n') ;;
              x <- remove_child p i ;;
              node_unref x ;;;
              ret acc
          end) ;;
  adj_walk RIGHT tk (n_next n) acc.

(** _dom_text_get_whole_text, text.c:254-258. *)
Definition get_whole_text (i : id) : M st (option bytes) := adj_text i COLLECT.

(** _dom_text_replace_whole_text, text.c:273-291. *)
Definition replace_whole_text (i : id) (content : option bytes) : M st id :=
  adj_text i DELETE ;;;
  set_data i content ;;;
  node_ref i ;;;
  ret i.
