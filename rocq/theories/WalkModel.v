(** Model of the code that walks a tree without changing it: node lists,
    HTML collections, getElementById, the tree walker and textContent.
    The walks are loops over heap links; the heap and its primitives are those
    of [HeapModel].  Lists and collections hold a reference on their root, which
    is what keeps it alive; their own life cycle is not modelled here. *)
From Coq Require Import List Arith NArith Bool.
From Verif Require Import Base HeapModel StringModel.
Import ListNotations.
Local Open Scope dom_scope.

(** A dom_string pointer held in a node.  Whether the string is interned does
    not influence any comparison (property C35). *)
Definition dstring (o : option bytes) : option dstr := option_map (mk_dstr false) o.
Definition isequal (a b : option bytes) : bool := string_isequal (dstring a) (dstring b).
Definition caseless_isequal (a b : option bytes) : bool := string_caseless_isequal (dstring a) (dstring b).

(** ** Node lists *)

(** enum nodelist_type, src/core/nodelist.h:21-27. *)
Inductive nlkind : Type := CHILDREN | BY_NAME | BY_NAME_CASELESS | BY_NS | BY_NS_CASELESS.

(** struct dom_nodelist, nodelist.c:25-46 (without owner and reference count). *)
Record nodelist : Type := mkList {
  nl_type : nlkind;
  nl_root : id;
  nl_name : option bytes;
  nl_any_name : bool;
  nl_ns : option bytes;
  nl_any_ns : bool;
  nl_local : option bytes;
  nl_any_local : bool
}.

(** The test for the one-character string "*", nodelist.c:93-98, 106-111, 115-120. *)
Definition star (o : option bytes) : bool :=
  match o with Some [c] => N.eqb c 42 | _ => false end.

(** _dom_nodelist_create, nodelist.c:68-130. *)
Definition list_children (root : id) : nodelist := mkList CHILDREN root None false None false None false.
Definition list_by_name (caseless : bool) (root : id) (name : bytes) : nodelist :=
  mkList (if caseless then BY_NAME_CASELESS else BY_NAME) root (Some name) (star (Some name)) None false None false.
Definition list_by_ns (caseless : bool) (root : id) (ns local : option bytes) : nodelist :=
  mkList (if caseless then BY_NS_CASELESS else BY_NS) root None false ns (star ns) local (star local).

Definition element_node (n : node) : bool := ntype_eqb (n_type n) ELEMENT.

(** [cur->name != NULL && eq(cur->name, want)] *)
Definition name_is (eq : option bytes -> option bytes -> bool) (n : node) (want : option bytes) : bool :=
  negb (is_none (n_name n)) && eq (n_name n) want.

(** Whether get_length counts a node, nodelist.c:207-250. *)
Definition len_counts (l : nodelist) (n : node) : bool :=
  match nl_type l with
  | CHILDREN => true
  | BY_NAME => (nl_any_name l || name_is isequal n (nl_name l)) && element_node n
  | BY_NAME_CASELESS => (nl_any_name l || name_is caseless_isequal n (nl_name l)) && element_node n
  | BY_NS =>
      (nl_any_ns l || isequal (n_ns n) (nl_ns l)) &&
      (nl_any_local l || name_is isequal n (nl_local l)) && element_node n
  | BY_NS_CASELESS =>
      (nl_any_ns l || caseless_isequal (n_ns n) (nl_ns l)) &&
      (nl_any_local l || name_is caseless_isequal n (nl_local l)) && element_node n
  end.

(** Whether item counts a node, nodelist.c:313-361: the namespace tests differ
    from those of get_length. *)
Definition item_counts (l : nodelist) (n : node) : bool :=
  match nl_type l with
  | CHILDREN => true
  | BY_NAME => (nl_any_name l || name_is isequal n (nl_name l)) && element_node n
  | BY_NAME_CASELESS => (nl_any_name l || name_is caseless_isequal n (nl_name l)) && element_node n
  | BY_NS =>
      (nl_any_ns l || (negb (is_none (n_ns n)) && isequal (n_ns n) (nl_ns l))) &&
      (nl_any_local l || name_is isequal n (nl_local l)) && element_node n
  | BY_NS_CASELESS =>
      (nl_any_ns l || (negb (is_none (n_ns n)) && caseless_isequal (n_ns n) (nl_ns l))) &&
      (nl_any_local l || name_is caseless_isequal n (nl_local l)) && element_node n
  end.

(** The step to the next node, nodelist.c:252-279 and 369-396 (the two are the same). *)
Definition list_next (l : nodelist) (cur : id) : M st (option id) :=
  n <- load cur ;;
  match nl_type l with
  | CHILDREN => ret (n_next n)
  | _ =>
      match n_first n with
      | Some x => ret (Some x)
      | None =>
          match n_next n with
          | Some x => ret (Some x)
          | None =>
              j <- with_fuel (fun f => climb f (nl_root l) cur (n_parent n)) ;;
              nj <- load j ;;
              ret (n_next nj)
          end
      end
  end.

(** dom_nodelist_get_length, nodelist.c:199-286. *)
Fixpoint length_loop (fuel : nat) (l : nodelist) (cur : option id) (len : N) : M st N :=
  match cur with
  | None => ret len
  | Some i =>
      match fuel with
      | O => stuck OutOfFuel
      | S f =>
          n <- load i ;;
          nx <- list_next l i ;;
          length_loop f l nx (if len_counts l n then u32 (len + 1) else len)
      end
  end.
Definition list_length (l : nodelist) : M st N :=
  r <- load (nl_root l) ;;
  with_fuel (fun f => length_loop f l (n_first r) 0%N).

(** _dom_nodelist_item, nodelist.c:305-403. *)
Fixpoint item_loop (fuel : nat) (l : nodelist) (index : N) (cur : option id) (count : N) : M st (option id) :=
  match cur with
  | None => ret None
  | Some i =>
      match fuel with
      | O => stuck OutOfFuel
      | S f =>
          n <- load i ;;
          let count' := if item_counts l n then u32 (count + 1) else count in
          if N.eqb (u32 (index + 1)) count' then ret (Some i)
          else nx <- list_next l i ;; item_loop f l index nx count'
      end
  end.
Definition list_item (l : nodelist) (index : N) : M st (option id) :=
  r <- load (nl_root l) ;;
  x <- with_fuel (fun f => item_loop f l index (n_first r) 0%N) ;;
  ref_opt x.

(** ** HTML collections.  The test [ic(node, ctx)] is an arbitrary predicate. *)

(** The climb of html_collection.c:133-137. *)
Fixpoint climb_to (fuel : nat) (root node : id) (parent : option id) : M st id :=
  match fuel with
  | O => stuck OutOfFuel
  | S f =>
      if Nat.eqb node root then ret node
      else
        p <- deref parent ;;
        np <- load p ;;
        if oid_eqb (n_last np) (Some node) then climb_to f root p (n_parent np) else ret node
  end.

(** html_collection.c:127-145, 180-197, 260-278. *)
Definition col_next (root cur : id) : M st (option id) :=
  n <- load cur ;;
  match n_first n with
  | Some x => ret (Some x)
  | None =>
      match n_next n with
      | Some x => ret (Some x)
      | None =>
          j <- with_fuel (fun f => climb_to f root cur (n_parent n)) ;;
          if Nat.eqb j root then ret None
          else nj <- load j ;; ret (n_next nj)
      end
  end.

(** dom_html_collection_get_length, html_collection.c:116-150. *)
Fixpoint col_length_loop (fuel : nat) (ic : id -> bool) (root : id) (cur : option id) (len : N) : M st N :=
  match cur with
  | None => ret len
  | Some i =>
      match fuel with
      | O => stuck OutOfFuel
      | S f =>
          n <- load i ;;
          nx <- col_next root i ;;
          col_length_loop f ic root nx (if element_node n && ic i then u32 (len + 1) else len)
      end
  end.
Definition col_length (ic : id -> bool) (root : id) : M st N :=
  with_fuel (fun f => col_length_loop f ic root (Some root) 0%N).

(** dom_html_collection_item, html_collection.c:160-202. *)
Fixpoint col_item_loop (fuel : nat) (ic : id -> bool) (root : id) (index : N) (cur : option id) (len : N)
  : M st (option id) :=
  match cur with
  | None => ret None
  | Some i =>
      match fuel with
      | O => stuck OutOfFuel
      | S f =>
          n <- load i ;;
          let len' := if element_node n && ic i then u32 (len + 1) else len in
          if N.eqb len' (u32 (index + 1)) then ret (Some i)
          else nx <- col_next root i ;; col_item_loop f ic root index nx len'
      end
  end.
Definition col_item (ic : id -> bool) (root : id) (index : N) : M st (option id) :=
  x <- with_fuel (fun f => col_item_loop f ic root index (Some root) 0%N) ;;
  ref_opt x.

(** ** Attribute lookup *)

(** The search of _dom_element_attr_list_find_by_name without a namespace,
    element.c:198-221: the first attribute of that name, whatever its namespace. *)
Fixpoint find_attr (name : bytes) (l : list id) : M st (option id) :=
  match l with
  | [] => ret None
  | a :: r =>
      na <- load a ;;
      if isequal (Some name) (n_name na) then ret (Some a) else find_attr name r
  end.

(** The loop of _dom_attr_get_value, attr.c:477-519: entity references have no
    textual representation (entity_ref.c:103-110). *)
Fixpoint attr_text (fuel : nat) (c : option id) (acc : bytes) : M st bytes :=
  match c with
  | None => ret acc
  | Some i =>
      match fuel with
      | O => stuck OutOfFuel
      | S f =>
          n <- load i ;;
          match n_type n with
          | TEXT => attr_text f (n_next n) (acc ++ match n_value n with Some v => v | None => [] end)
          | ENTITY_REFERENCE => raise NOT_SUPPORTED_ERR
          | _ => attr_text f (n_next n) acc
          end
      end
  end.

(** _dom_attr_get_value, attr.c:441-524, for attributes whose value was set as a
    string (the typed attributes of attr.c:207-382 are left out here). *)
Definition attr_value (a : id) : M st bytes :=
  na <- load a ;;
  match n_first na with
  | None => ret []
  | Some c =>
      nc <- load c ;;
      match oid_eqb (n_last na) (Some c), n_type nc, n_value nc with
      | true, TEXT, Some v => ret v
      | _, _, _ => with_fuel (fun f => attr_text f (Some c) [])
      end
  end.

(** _dom_element_get_attr without a namespace, element.c:1614-1632. *)
Definition get_attribute (i : id) (name : bytes) : M st (option bytes) :=
  n <- load i ;;
  a <- find_attr name (n_attrs n) ;;
  match a with
  | None => ret None
  | Some a => v <- attr_value a ;; ret (Some v)
  end.

(** _dom_element_get_id, element.c:2214-2265, for elements without a
    user-specified id attribute; the document's id name is "id"
    (document.c:150-156, 1398-1403). *)
Definition id_string : bytes := [105; 100]%N.
Definition name_string : bytes := [110; 97; 109; 101]%N.
Definition get_id (i : id) : M st (option bytes) :=
  n <- load i ;;
  match n_owner n with
  | None => stuck AssertFail
  | Some d => load d ;;; get_attribute i id_string
  end.

(** dom_html_collection_named_item, html_collection.c:212-285. *)
Definition named (i : id) (name : bytes) : M st bool :=
  v <- get_id i ;;
  if match v with Some b => isequal (Some name) (Some b) | None => false end then ret true
  else
    w <- get_attribute i name_string ;;
    ret match w with Some b => isequal (Some name) (Some b) | None => false end.
Fixpoint col_named_loop (fuel : nat) (ic : id -> bool) (root : id) (name : bytes) (cur : option id)
  : M st (option id) :=
  match cur with
  | None => ret None
  | Some i =>
      match fuel with
      | O => stuck OutOfFuel
      | S f =>
          n <- load i ;;
          b <- (if element_node n && ic i then named i name else ret false) ;;
          if b then ret (Some i)
          else nx <- col_next root i ;; col_named_loop f ic root name nx
      end
  end.
Definition col_named (ic : id -> bool) (root : id) (name : bytes) : M st (option id) :=
  x <- with_fuel (fun f => col_named_loop f ic root name (Some root)) ;;
  ref_opt x.

(** ** getElementById *)

(** document.c:1450-1461: the inner loop. *)
Fixpoint find_up (fuel : nat) (root node : id) : M st (option id) :=
  match fuel with
  | O => stuck OutOfFuel
  | S f =>
      n <- load node ;;
      match n_next n with
      | Some x => ret (Some x)
      | None =>
          if oid_eqb (n_parent n) (Some root) then ret None
          else match n_parent n with
               | Some p => find_up f root p
               | None => ret None
               end
      end
  end.

(** _dom_find_element_by_id, document.c:1422-1467.  The outcome of get_id is not
    looked at; on failure it leaves the id NULL. *)
Fixpoint find_loop (fuel : nat) (root : id) (want : option bytes) (cur : option id) : M st (option id) :=
  match cur with
  | None => ret None
  | Some i =>
      match fuel with
      | O => stuck OutOfFuel
      | S f =>
          n <- load i ;;
          hit <- (if element_node n
                  then r <- try (get_id i) ;;
                       ret match r with inl (Some b) => isequal (Some b) want | _ => false end
                  else ret false) ;;
          if hit then ret (Some i)
          else
            nx <- (match n_first n with
                   | Some x => ret (Some x)
                   | None => with_fuel (fun g => find_up g root i)
                   end) ;;
            find_loop f root want nx
      end
  end.

(** _dom_document_get_document_element, document.c:433-451. *)
Fixpoint first_element (fuel : nat) (c : option id) : M st (option id) :=
  match c with
  | None => ret None
  | Some i =>
      match fuel with
      | O => stuck OutOfFuel
      | S f =>
          n <- load i ;;
          if element_node n then ret (Some i) else first_element f (n_next n)
      end
  end.
Definition document_element (d : id) : M st (option id) :=
  n <- load d ;;
  x <- with_fuel (fun f => first_element f (n_first n)) ;;
  ref_opt x.

(** _dom_document_get_element_by_id, document.c:874-893. *)
Definition get_element_by_id (d : id) (want : option bytes) : M st (option id) :=
  r <- document_element d ;;
  x <- match r with
       | Some r => with_fuel (fun f => find_loop f r want (Some r))
       | None => ret None
       end ;;
  match r with Some r => node_unref r | None => ret tt end ;;;
  ref_opt x.

(** ** The tree walker *)

(** include/dom/walk.h:18-39. *)
Inductive stage : Type := ENTER | LEAVE.
Inductive cmd : Type := CONTINUE | SKIP | ABORT.
Record mask : Type := mkMask { m_enter : bool; m_leave : bool }.
Definition enabled (m : mask) (s : stage) : bool := match s with ENTER => m_enter m | LEAVE => m_leave m end.
Definition call : Type := (stage * id)%type.

(** The client's callback answers from the calls made so far, the present one
    last (so it may keep any state of its own); it does not edit the tree. *)
Definition callback : Type := list call -> cmd.

(** dom_walk__cb, walk.c:26-47. *)
Definition walk_cb (m : mask) (cb : callback) (s : stage) (i : id) (c : cmd) (tr : list call) : cmd * list call :=
  if enabled m s then let tr' := tr ++ [(s, i)] in (cb tr', tr') else (c, tr).

(** What the inner loop of walk.c:77-107 ends with. *)
Inductive left : Type :=
| Aborted (tr : list call)                        (** return from the walk *)
| AtRoot (tr : list call)                         (** [node == root] *)
| AtNext (x : option id) (c : cmd) (tr : list call).  (** a next sibling *)

(** walk.c:77-107.  The reference taken on each node visited and dropped when
    the walk moves on is not modelled. *)
Fixpoint walk_leave (fuel : nat) (m : mask) (cb : callback) (root : id) (node : option id) (c : cmd) (tr : list call)
  : M st left :=
  match fuel with
  | O => stuck OutOfFuel
  | S f =>
      if oid_eqb node (Some root) then ret (AtRoot tr)
      else
        i <- deref node ;;
        let '(c', tr') := walk_cb m cb LEAVE i c tr in
        match c' with
        | ABORT => ret (Aborted tr')
        | _ =>
            n <- load i ;;
            if ntype_eqb (n_type n) ATTRIBUTE then walk_leave f m cb root None c' tr'
            else
              match n_next n with
              | Some x => ret (AtNext (Some x) c' tr')
              | None => walk_leave f m cb root (n_parent n) c' tr'
              end
        end
  end.

(** libdom_treewalk, walk.c:50-130; the result is the list of calls made. *)
Fixpoint walk_loop (fuel : nat) (m : mask) (cb : callback) (root node : id) (c : cmd) (tr : list call) : M st (list call) :=
  match c with
  | ABORT => ret tr
  | _ =>
      match fuel with
      | O => stuck OutOfFuel
      | S f =>
          n <- load node ;;
          let enter (x : id) (c : cmd) (tr : list call) :=
            assert_ (negb (Nat.eqb x root)) ;;;
            let '(c', tr') := walk_cb m cb ENTER x c tr in
            walk_loop f m cb root x c' tr' in
          match match c with SKIP => None | _ => n_first n end with
          | Some x => enter x c tr
          | None =>
              r <- with_fuel (fun g => walk_leave g m cb root (Some node) c tr) ;;
              match r with
              | Aborted tr' => ret tr'
              | AtRoot tr' => ret tr'
              | AtNext None _ _ => stuck AssertFail
              | AtNext (Some x) c' tr' => enter x c' tr'
              end
          end
      end
  end.
Definition treewalk (m : mask) (cb : callback) (root : id) : M st (list call) :=
  with_fuel (fun f => walk_loop f m cb root root CONTINUE []).

(** ** textContent *)

(** The loop of _dom_node_get_text_content, node.c:1477-1489; [rec] is the
    virtual call dom_node_get_text_content. *)
Fixpoint text_loop (fuel : nat) (rec : id -> M st (option bytes)) (c : option id) (str : option bytes) : M st (option bytes) :=
  match c with
  | None => ret str
  | Some i =>
      match fuel with
      | O => stuck OutOfFuel
      | S f =>
          n <- load i ;;
          str' <- match n_type n with
                  | COMMENT | PI => ret str
                  | _ =>
                      r <- rec i ;;
                      ret match str, r with
                          | None, _ => r
                          | Some a, Some b => Some (a ++ b)
                          | Some a, None => Some a
                          end
                  end ;;
          text_loop f rec (n_next n) str'
      end
  end.

(** dom_node_get_text_content: character data answer their data
    (characterdata.c:99-113, 461-467), documents and doctypes NULL
    (document.c:1256-1264, document_type.c:306-314), all others the loop. *)
Fixpoint text_content_at (fuel : nat) (i : id) : M st (option bytes) :=
  match fuel with
  | O => stuck OutOfFuel
  | S f =>
      n <- load i ;;
      match n_type n with
      | TEXT | CDATA | COMMENT => ret (n_value n)
      | DOCUMENT | DOCTYPE => ret None
      | _ =>
          assert_ (negb (is_none (n_owner n))) ;;;
          with_fuel (fun g => text_loop g (text_content_at f) (n_first n) None)
      end
  end.
Definition get_text_content (i : id) : M st (option bytes) := with_fuel (fun f => text_content_at f i).
