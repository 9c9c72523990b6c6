(** Attributes of elements: src/core/element.c and src/core/attr.c.  Definitions
    only.  Elements and attributes live in their own heap here, apart from the
    child lists of HeapModel: an element keeps its class cache and the head of its
    circular list of list nodes, an attribute the values of its text children.
    Strings are their bytes (equality of strings: C35); reference counts of strings
    and mutation events (C45 and EventModel) are left out.  Names are never NULL. *)
From Coq Require Import List Arith NArith Bool.
From Verif Require Import Base Utf8Model StringModel NameModel RingModel.
Import ListNotations.
Local Open Scope dom_scope.

(** dom_attr_type, include/dom/core/attr.h:37-43. *)
Inductive atype := UNSET | STRING | BOOL | SHORT | INTEGER.
Definition atype_eqb (a b : atype) : bool :=
  match a, b with UNSET, UNSET | STRING, STRING | BOOL, BOOL | SHORT, SHORT | INTEGER, INTEGER => true | _, _ => false end.

(** struct dom_attr, attr.c:27-52.  [a_kids]: the values of the text children (no
    entity references).  The union of the typed values is three fields, because the
    type never changes once set; nothing initialises them. *)
Record attr := mkAttr {
  a_local : bytes; a_ns : option bytes; a_prefix : option bytes; a_doc : nat;
  a_parent : option nat; a_kids : list (option bytes);
  a_type : atype; a_bool : bool; a_short : N; a_int : N;
  a_ro : bool; a_ref : N }.
Definition set_aparent p a := mkAttr (a_local a) (a_ns a) (a_prefix a) (a_doc a) p (a_kids a) (a_type a) (a_bool a) (a_short a) (a_int a) (a_ro a) (a_ref a).
Definition set_kids k a := mkAttr (a_local a) (a_ns a) (a_prefix a) (a_doc a) (a_parent a) k (a_type a) (a_bool a) (a_short a) (a_int a) (a_ro a) (a_ref a).
Definition set_type t a := mkAttr (a_local a) (a_ns a) (a_prefix a) (a_doc a) (a_parent a) (a_kids a) t (a_bool a) (a_short a) (a_int a) (a_ro a) (a_ref a).
Definition set_abool v a := mkAttr (a_local a) (a_ns a) (a_prefix a) (a_doc a) (a_parent a) (a_kids a) (a_type a) v (a_short a) (a_int a) (a_ro a) (a_ref a).
Definition set_ashort v a := mkAttr (a_local a) (a_ns a) (a_prefix a) (a_doc a) (a_parent a) (a_kids a) (a_type a) (a_bool a) v (a_int a) (a_ro a) (a_ref a).
Definition set_aint v a := mkAttr (a_local a) (a_ns a) (a_prefix a) (a_doc a) (a_parent a) (a_kids a) (a_type a) (a_bool a) (a_short a) v (a_ro a) (a_ref a).
Definition set_aref v a := mkAttr (a_local a) (a_ns a) (a_prefix a) (a_doc a) (a_parent a) (a_kids a) (a_type a) (a_bool a) (a_short a) (a_int a) (a_ro a) v.

(** struct dom_attr_list, element.c:50-60 (its list links are in the ring heap). *)
Record lnode := mkLnode { l_attr : nat; l_name : bytes; l_ns : option bytes }.

(** struct dom_element, core/element.h: [e_ro] says whether the element lies below
    an entity (_dom_node_readonly, node.c:2040-2063); [e_quirks] is its document's. *)
Record el := mkEl { e_doc : nat; e_ro : bool; e_quirks : bool; e_head : option nat; e_classes : list bytes }.
Definition set_head h e := mkEl (e_doc e) (e_ro e) (e_quirks e) h (e_classes e).
Definition set_eclasses c e := mkEl (e_doc e) (e_ro e) (e_quirks e) (e_head e) c.

(** The heap: elements, attributes, list nodes and their links; the next ids. *)
Record ast := mkAst { as_el : nat -> option el; as_at : nat -> option attr; as_ln : nat -> option lnode; as_ring : rheap;
  as_nel : nat; as_nat : nat; as_nln : nat }.

Definition put {A} (f : nat -> option A) (i : nat) (v : option A) : nat -> option A := fun j => if Nat.eqb j i then v else f j.
Definition with_el f s := mkAst f (as_at s) (as_ln s) (as_ring s) (as_nel s) (as_nat s) (as_nln s).
Definition with_at f s := mkAst (as_el s) f (as_ln s) (as_ring s) (as_nel s) (as_nat s) (as_nln s).

(** Memory accesses. *)
Definition eload (e : nat) : M ast el := fun s => match as_el s e with Some x => Ok x s | None => Bad UseAfterFree end.
Definition eupd (e : nat) (f : el -> el) : M ast unit := fun s =>
  match as_el s e with Some x => Ok tt (with_el (put (as_el s) e (Some (f x))) s) | None => Bad UseAfterFree end.
Definition aload (a : nat) : M ast attr := fun s => match as_at s a with Some x => Ok x s | None => Bad UseAfterFree end.
Definition aupd (a : nat) (f : attr -> attr) : M ast unit := fun s =>
  match as_at s a with Some x => Ok tt (with_at (put (as_at s) a (Some (f x))) s) | None => Bad UseAfterFree end.
Definition lload (i : nat) : M ast lnode := fun s => match as_ln s i with Some x => Ok x s | None => Bad UseAfterFree end.
Definition on_ring {A} (m : M rheap A) : M ast A := fun s =>
  match m (as_ring s) with
  | Ok a r => Ok a (mkAst (as_el s) (as_at s) (as_ln s) r (as_nel s) (as_nat s) (as_nln s))
  | Exc e r => Exc e (mkAst (as_el s) (as_at s) (as_ln s) r (as_nel s) (as_nat s) (as_nln s))
  | Bad b => Bad b
  end.

(** ** Attributes *)

(** _dom_attr_create, attr.c:89-160, with one reference.  [junk]: what the
    memory of the typed values happens to hold. *)
Definition attr_create (junk : bool * N * N) (doc : nat) (local : bytes) (ns prefix : option bytes) : M ast nat := fun s =>
  let '(b, sh, i) := junk in
  Ok (as_nat s) (mkAst (as_el s) (put (as_at s) (as_nat s) (Some (mkAttr local ns prefix doc None [] UNSET b sh i false 1)))
    (as_ln s) (as_ring s) (as_nel s) (S (as_nat s)) (as_nln s)).

Definition attr_free (a : nat) : M ast unit := fun s => Ok tt (with_at (put (as_at s) a None) s).

(** dom_node_try_destroy, node.c:2304-2320: an attribute without references and
    without an element goes. *)
Definition attr_try_destroy (a : nat) : M ast unit :=
  x <- aload a ;;
  match a_parent x with
  | Some _ => ret tt
  | None => if (a_ref x =? 0)%N then attr_free a else ret tt
  end.
(** dom_node_ref and dom_node_unref, include/dom/core/node.h:170-205. *)
Definition attr_ref (a : nat) : M ast unit := aupd a (fun x => set_aref (u32 (a_ref x + 1)) x).
Definition attr_unref (a : nat) : M ast unit :=
  x <- aload a ;;
  aupd a (set_aref (u32 (a_ref x + 4294967295))) ;;;
  if (u32 (a_ref x + 4294967295) =? 0)%N then attr_try_destroy a else ret tt.

(** _dom_attr_get_value, attr.c:441-522. *)
Definition kids_value (k : list (option bytes)) : bytes := concat (map (fun v => match v with Some b => b | None => [] end) k).
Definition attr_get_value (a : nat) : M ast bytes :=
  x <- aload a ;;
  match a_kids x with
  | [Some v] => ret v
  | k =>
      let t := match a_type x, k with UNSET, _ :: _ => STRING | t, _ => t end in
      aupd a (set_type t) ;;;
      if atype_eqb t STRING then ret (kids_value k) else ret []
  end.

(** _dom_attr_set_value, attr.c:534-600.  dom_element_parse_attribute reads the
    vtable of the owning element; for all elements but some HTML ones it answers the
    value as it is (element.c:1506-1517). *)
Definition attr_set_value (a : nat) (v : option bytes) : M ast unit :=
  x <- aload a ;;
  if a_ro x then raise NO_MODIFICATION_ALLOWED_ERR
  else
    aupd a (set_type (match a_type x with UNSET => STRING | t => t end)) ;;;
    if negb (atype_eqb (match a_type x with UNSET => STRING | t => t end) STRING) then raise ATTR_WRONG_TYPE_ERR
    else
      match a_parent x with
      | None => stuck NullDeref
      | Some e => eload e ;;; aupd a (set_kids [v])
      end.

(** attr.c:207-382: the typed getters and setters. *)
Definition attr_get_integer (a : nat) : M ast N :=
  x <- aload a ;; if atype_eqb (a_type x) INTEGER then ret (a_int x) else raise ATTR_WRONG_TYPE_ERR.
Definition attr_set_integer (a : nat) (v : N) : M ast unit :=
  x <- aload a ;;
  let t := match a_type x with UNSET => INTEGER | t => t end in
  aupd a (set_type t) ;;;
  if negb (atype_eqb t INTEGER) then raise ATTR_WRONG_TYPE_ERR
  else if (a_int x =? v)%N then ret tt else aupd a (set_aint v).
Definition attr_get_short (a : nat) : M ast N :=
  x <- aload a ;; if atype_eqb (a_type x) SHORT then ret (a_short x) else raise ATTR_WRONG_TYPE_ERR.
Definition attr_set_short (a : nat) (v : N) : M ast unit :=
  x <- aload a ;;
  let t := match a_type x with UNSET => SHORT | t => t end in
  aupd a (set_type t) ;;;
  if negb (atype_eqb t SHORT) then raise ATTR_WRONG_TYPE_ERR
  else if (a_short x =? v)%N then ret tt else aupd a (set_ashort v).
Definition attr_get_bool (a : nat) : M ast bool :=
  x <- aload a ;; if atype_eqb (a_type x) BOOL then ret (a_bool x) else raise ATTR_WRONG_TYPE_ERR.
Definition attr_set_bool (a : nat) (v : bool) : M ast unit :=
  x <- aload a ;;
  let t := match a_type x with UNSET => BOOL | t => t end in
  aupd a (set_type t) ;;;
  if negb (atype_eqb t BOOL) then raise ATTR_WRONG_TYPE_ERR
  else if Bool.eqb (a_bool x) v then ret tt else aupd a (set_abool v).

(** _dom_attr_get_name, attr.c:409-414: the node name. *)
Definition attr_get_name (a : nat) : M ast bytes := x <- aload a ;; node_name (a_prefix x, a_local x).

(** ** The class cache *)

(** _dom_element_create_classes, element.c:92-148: the value up to a NUL, cut at
    spaces. *)
Fixpoint c_string (v : bytes) : bytes := match v with [] => [] | c :: r => if (c =? 0)%N then [] else c :: c_string r end.
Fixpoint class_split (v word : bytes) : list bytes :=
  match v with
  | [] => match word with [] => [] | _ => [word] end
  | c :: r =>
      if (c =? 32)%N then match word with [] => class_split r [] | _ => word :: class_split r [] end
      else class_split r (word ++ [c])
  end.
Definition s_class : bytes := [99; 108; 97; 115; 115]%N.
Definition is_class (ns : option bytes) (name : bytes) : bool :=
  match ns with None => bytes_eqb name s_class | Some _ => false end.

(** _dom_element_has_class, element.c:1136-1180 (lwc caseless equality folds
    A-Z). *)
Definition lower (c : N) : N := if ((65 <=? c) && (c <=? 90))%N then (c + 32)%N else c.
Definition has_class (e : nat) (c : bytes) : M ast bool :=
  x <- eload e ;;
  ret (existsb (fun k => if e_quirks x then bytes_eqb (map lower c) (map lower k) else bytes_eqb c k) (e_classes x)).

(** ** The list of attributes *)

(** _dom_element_attr_list_find_by_name, element.c:198-221. *)
Definition lmatches (ns : option bytes) (name : bytes) (x : lnode) : bool :=
  (match ns with
   | None => true
   | Some n => match l_ns x with Some m => bytes_eqb n m | None => false end
   end) && bytes_eqb name (l_name x).
Fixpoint find_loop (fuel : nat) (list : nat) (ns : option bytes) (name : bytes) (cur : nat) : M ast (option nat) :=
  match fuel with
  | O => stuck OutOfFuel
  | S f =>
      x <- lload cur ;;
      if lmatches ns name x then ret (Some cur)
      else
        c <- on_ring (rload (Some cur)) ;;
        match snd c with
        | None => stuck AssertFail
        | Some nx => if Nat.eqb nx list then ret None else find_loop f list ns name nx
        end
  end.
Definition find_by_name (head : option nat) (ns : option bytes) (name : bytes) : M ast (option nat) := fun s =>
  match head with
  | None => Ok None s
  | Some l => find_loop (S (as_nln s)) l ns name l s
  end.

(** _dom_element_attr_list_length and _get_by_index, element.c:229-268. *)
Fixpoint length_loop (fuel : nat) (list cur : nat) (count : N) : M ast N :=
  match fuel with
  | O => stuck OutOfFuel
  | S f =>
      c <- on_ring (rload (Some cur)) ;;
      match snd c with
      | None => stuck NullDeref
      | Some nx => if Nat.eqb nx list then ret (u32 (count + 1)) else length_loop f list nx (u32 (count + 1))
      end
  end.
Definition list_length (head : option nat) : M ast N := fun s =>
  match head with None => Ok 0%N s | Some l => length_loop (S (as_nln s)) l l 0 s end.
Fixpoint index_loop (fuel : nat) (list cur : nat) (index : N) : M ast (option nat) :=
  match fuel with
  | O => stuck OutOfFuel
  | S f =>
      if (u32 (index + 4294967295) =? 0)%N then ret (Some cur)
      else
        c <- on_ring (rload (Some cur)) ;;
        match snd c with
        | None => stuck NullDeref
        | Some nx => if Nat.eqb nx list then ret None else index_loop f list nx (u32 (index + 4294967295))
        end
  end.
Definition get_by_index (head : option nat) (index : N) : M ast (option nat) := fun s =>
  match head with None => Ok None s | Some l => index_loop (S (as_nln s)) l l index s end.

(** _dom_element_attr_list_node_create, element.c:314-356. *)
Definition node_create (a e : nat) (name : bytes) (ns : option bytes) : M ast nat :=
  x <- aload a ;;
  (if is_class ns name then
     v <- attr_get_value a ;; eupd e (set_eclasses (class_split (c_string v) []))
   else ret tt) ;;;
  fun s => Ok (as_nln s) (mkAst (as_el s) (as_at s) (put (as_ln s) (as_nln s) (Some (mkLnode a name ns)))
             (rset (as_ring s) (as_nln s) (Some (as_nln s), Some (as_nln s))) (as_nel s) (as_nat s) (S (as_nln s))).

Definition lfree (i : nat) : M ast unit := fun s =>
  Ok tt (mkAst (as_el s) (as_at s) (put (as_ln s) i None) (put (as_ring s) i None) (as_nel s) (as_nat s) (as_nln s)).

(** _dom_element_attr_list_node_destroy, element.c:276-303. *)
Definition node_destroy (i : nat) : M ast unit :=
  x <- lload i ;;
  y <- aload (l_attr x) ;;
  (if is_class (l_ns x) (l_name x) then
     match a_parent y with None => stuck NullDeref | Some e => eupd e (set_eclasses []) end
   else ret tt) ;;;
  aupd (l_attr x) (set_aparent None) ;;;
  attr_try_destroy (l_attr x) ;;;
  lfree i.

(** Linking, element.c:1738-1745, 2020-2029. *)
Definition link (e i : nat) : M ast unit :=
  x <- eload e ;;
  match e_head x with
  | None => eupd e (set_head (Some i))
  | Some h => lload h ;;; on_ring (list_append h i)
  end.
(** Unlinking, element.c:1799-1809, 2095-2105. *)
Definition unlink (e i : nat) : M ast unit :=
  x <- eload e ;;
  (if opt_eqb Nat.eqb (e_head x) (Some i) then
     c <- on_ring (rload (Some i)) ;;
     eupd e (set_head (if opt_eqb Nat.eqb (snd c) (Some i) then None else snd c))
   else ret tt) ;;;
  on_ring (list_del i).

(** ** Calls *)

(** dom_document_create_element, as far as attributes go. *)
Definition new_element (doc : nat) (ro quirks : bool) : M ast nat := fun s =>
  Ok (as_nel s) (mkAst (put (as_el s) (as_nel s) (Some (mkEl doc ro quirks None []))) (as_at s) (as_ln s) (as_ring s)
    (S (as_nel s)) (as_nat s) (as_nln s)).

(** _dom_element_get_attr, element.c:1614-1631. *)
Definition get_attr (e : nat) (ns : option bytes) (name : bytes) : M ast (option bytes) :=
  x <- eload e ;;
  m <- find_by_name (e_head x) ns name ;;
  match m with
  | None => ret None
  | Some i => y <- lload i ;; v <- attr_get_value (l_attr y) ;; ret (Some v)
  end.

(** _dom_element_has_attr, element.c:2149-2165. *)
Definition has_attr (e : nat) (ns : option bytes) (name : bytes) : M ast bool :=
  x <- eload e ;;
  m <- find_by_name (e_head x) ns name ;;
  ret (match m with None => false | Some _ => true end).

(** _dom_element_set_attr, element.c:1642-1760. *)
Definition set_attr (junk : bool * N * N) (e : nat) (ns : option bytes) (name : bytes) (v : option bytes) : M ast unit :=
  ok <- validate_attribute_name (Some name) ;;
  if negb ok then raise INVALID_CHARACTER_ERR
  else
    x <- eload e ;;
    if e_ro x then raise NO_MODIFICATION_ALLOWED_ERR
    else
      m <- find_by_name (e_head x) ns name ;;
      match m with
      | Some i =>
          y <- lload i ;;
          old <- attr_get_value (l_attr y) ;;
          attr_set_value (l_attr y) v
      | None =>
          a <- attr_create junk (e_doc x) name ns None ;;
          aupd a (set_aparent (Some e)) ;;;
          r <- try (attr_set_value a v) ;;
          match r with
          | inr ex => aupd a (set_aparent None) ;;; attr_unref a ;;; raise ex
          | inl _ =>
              i <- node_create a e name ns ;;
              link e i ;;;
              attr_unref a
          end
      end.

(** _dom_element_set_attribute_ns, element.c:865-896. *)
Definition set_attribute_ns (junk : bool * N * N) (e : nat) (ns : option bytes) (qname : bytes) (v : option bytes) : M ast unit :=
  ok <- validate_name (Some qname) ;;
  if negb ok then raise INVALID_CHARACTER_ERR
  else
    c <- try (validate_qname (Some qname) ns) ;;
    match c with
    | inr _ => raise NAMESPACE_ERR
    | inl _ =>
        q <- split_qname qname ;;
        match ns, fst q with
        | None, Some _ => raise NAMESPACE_ERR
        | _, _ => set_attr junk e ns (snd q) v
        end
    end.

(** _dom_element_remove_attr, element.c:1770-1839. *)
Definition remove_attr (e : nat) (ns : option bytes) (name : bytes) : M ast unit :=
  x <- eload e ;;
  if e_ro x then raise NO_MODIFICATION_ALLOWED_ERR
  else
    m <- find_by_name (e_head x) ns name ;;
    match m with
    | None => ret tt
    | Some i =>
        y <- lload i ;;
        attr_ref (l_attr y) ;;;
        unlink e i ;;;
        node_destroy i ;;;
        attr_get_value (l_attr y) ;;;
        attr_unref (l_attr y)
    end.

(** _dom_element_get_attr_node, element.c:1853-1871. *)
Definition get_attr_node (e : nat) (ns : option bytes) (name : bytes) : M ast (option nat) :=
  x <- eload e ;;
  m <- find_by_name (e_head x) ns name ;;
  match m with
  | None => ret None
  | Some i => y <- lload i ;; attr_ref (l_attr y) ;;; ret (Some (l_attr y))
  end.

(** _dom_element_set_attr_node, element.c:1890-2032: the replaced list node is
    unlinked and freed without a look at the element's head. *)
Definition set_attr_node (e : nat) (ns : option bytes) (a : nat) : M ast (option nat) :=
  x <- eload e ;;
  y <- aload a ;;
  if negb (Nat.eqb (e_doc x) (a_doc y)) then raise WRONG_DOCUMENT_ERR
  else if e_ro x then raise NO_MODIFICATION_ALLOWED_ERR
  else if negb (match a_parent y with None => true | Some p => Nat.eqb p e end) then raise INUSE_ATTRIBUTE_ERR
  else
    m <- find_by_name (e_head x) ns (a_local y) ;;
    old <- (match m with
            | None => ret None
            | Some i =>
                z <- lload i ;;
                attr_ref (l_attr z) ;;;
                on_ring (list_del i) ;;;
                node_destroy i ;;;
                attr_get_value (l_attr z) ;;;
                ret (Some (l_attr z))
            end) ;;
    n <- node_create a e (a_local y) ns ;;
    aupd a (set_aparent (Some e)) ;;;
    attr_get_value a ;;;
    link e n ;;;
    ret old.
Definition set_attribute_node (e a : nat) : M ast (option nat) := set_attr_node e None a.
(** _dom_element_set_attribute_node_ns, element.c:949-966. *)
Definition set_attribute_node_ns (e a : nat) : M ast (option nat) := y <- aload a ;; set_attr_node e (a_ns y) a.

(** _dom_element_remove_attr_node, element.c:2049-2138: looked up by its
    qualified name (node_name, C37). *)
Definition remove_attr_node (e : nat) (ns : option bytes) (a : nat) : M ast nat :=
  x <- eload e ;;
  if e_ro x then raise NO_MODIFICATION_ALLOWED_ERR
  else
    y <- aload a ;;
    q <- node_name (a_prefix y, a_local y) ;;
    m <- find_by_name (e_head x) ns q ;;
    match m with
    | None => raise NOT_FOUND_ERR
    | Some i =>
        z <- lload i ;;
        if negb (Nat.eqb (l_attr z) a) then raise NOT_FOUND_ERR
        else
          attr_ref a ;;;
          unlink e i ;;;
          node_destroy i ;;;
          attr_get_value a ;;;
          ret a
    end.

(** attributes_get_length, attributes_item, element.c:2270-2276, 2329-2347. *)
Definition map_length (e : nat) : M ast N := x <- eload e ;; list_length (e_head x).
Definition map_item (e : nat) (index : N) : M ast (option nat) :=
  x <- eload e ;;
  m <- get_by_index (e_head x) (u32 (index + 1)) ;;
  match m with
  | None => ret None
  | Some i => y <- lload i ;; attr_ref (l_attr y) ;;; ret (Some (l_attr y))
  end.
(** attributes_remove_named_item, element.c:2310-2326. *)
Definition map_remove (e : nat) (ns : option bytes) (name : bytes) : M ast nat :=
  n <- get_attr_node e ns name ;;
  match n with None => raise NOT_FOUND_ERR | Some a => remove_attr e ns name ;;; ret a end.
