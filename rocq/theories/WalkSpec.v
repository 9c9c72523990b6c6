(** Specification of the tree walks: well-linked heaps, selections from a list,
    and what each walk is to answer. *)
From Coq Require Import List Arith NArith Bool.
From Verif Require Import Base HeapModel HeapSpec HistModel TreeSpec WalkModel.
Import ListNotations.

(** What the tree properties C01, C05 and C08 say of the heaps that clients can
    build: child lists are consistent, following parents ends, children nest as
    the DOM permits, and nodes belong to documents. *)
Record linked (s : st) : Prop := mkLinked {
  ln_alloc : forall i, live (s_heap s) i -> i < s_nxt s;
  ln_lists : forall p, live (s_heap s) p -> exists l, consistent_children (s_heap s) p l;
  ln_parent : forall i n p, s_heap s i = Some n -> n_parent n = Some p -> live (s_heap s) p;
  ln_ends : forall i, live (s_heap s) i -> exists r, anc (s_heap s) r i /\ top_node (s_heap s) r;
  ln_nests : forall i n p np, s_heap s i = Some n -> n_parent n = Some p -> s_heap s p = Some np ->
     n_type n <> ATTRIBUTE -> nests (n_type np) (n_type n);
  ln_attrs : forall i n a, s_heap s i = Some n -> In a (n_attrs n) -> type_of (s_heap s) a = Some ATTRIBUTE;
  ln_owner : forall i n, s_heap s i = Some n -> n_type n <> DOCTYPE -> exists d, n_owner n = Some d;
  ln_element : forall i n d, s_heap s i = Some n -> n_type n = ELEMENT -> n_owner n = Some d -> live (s_heap s) d
}.

(** Another reference can be counted on any node. *)
Definition counted (s : st) : Prop := forall i n, s_heap s i = Some n -> (n_ref n + 1 < two32)%N.

(** [k] is [l] without the members that do not satisfy [P], in the same order. *)
Inductive picks {A} (P : A -> Prop) : list A -> list A -> Prop :=
| picks_nil : picks P [] []
| picks_yes x l k : P x -> picks P l k -> picks P (x :: l) (x :: k)
| picks_no x l k : ~ P x -> picks P l k -> picks P (x :: l) k.

(** The members of [below] that satisfy [P], in document order; the root is not among them. *)
Definition descendants (h : heap) (root : id) (P : node -> Prop) (k : list id) : Prop :=
  exists ds, order h root (root :: ds) /\ picks (fun i => exists n, h i = Some n /\ P n) ds k.

(** Fewer than 2^32 nodes lie below the root. *)
Definition below_count (h : heap) (root : id) : Prop :=
  forall ds, order h root (root :: ds) -> (N.of_nat (length ds) < two32)%N.

(** An element with the given tag name; '*' stands for any name.  ASCII case is
    folded in [caseless] lists. *)
Definition fold_case (caseless : bool) (b : bytes) : bytes :=
  if caseless then map (fun c => if (65 <=? c)%N && (c <=? 90)%N then (c + 32)%N else c) b else b.
Definition has_tag (caseless : bool) (name : bytes) (n : node) : Prop :=
  n_type n = ELEMENT /\
  (name = [42%N] \/ exists b, n_name n = Some b /\ fold_case caseless b = fold_case caseless name).

(** An element in the given namespace with the given local name.  NULL and the
    empty string both mean no namespace. *)
Definition no_null (o : option bytes) : bytes := match o with Some b => b | None => [] end.
Definition has_ns_tag (caseless : bool) (ns local : option bytes) (n : node) : Prop :=
  n_type n = ELEMENT /\
  (ns = Some [42%N] \/ fold_case caseless (no_null (n_ns n)) = fold_case caseless (no_null ns)) /\
  (local = Some [42%N] \/
   exists b, n_name n = Some b /\ fold_case caseless b = fold_case caseless (no_null local)).

(** ** Attributes *)

(** The text of an attribute: that of its children, all of them text nodes. *)
Inductive attr_says (h : heap) (a : id) : bytes -> Prop :=
| says_text l vs : children h a l ->
    Forall2 (fun c v => exists n, h c = Some n /\ n_type n = TEXT /\ no_null (n_value n) = v) l vs ->
    attr_says h a (concat vs).

(** The first attribute of that name among [l]. *)
Inductive first_named (h : heap) (name : bytes) : list id -> id -> Prop :=
| fn_here a n l : h a = Some n -> no_null (n_name n) = name -> first_named h name (a :: l) a
| fn_next a n l x : h a = Some n -> no_null (n_name n) <> name -> first_named h name l x -> first_named h name (a :: l) x.
Definition has_attr (h : heap) (i : id) (name v : bytes) : Prop :=
  exists n a, h i = Some n /\ n_type n = ELEMENT /\ first_named h name (n_attrs n) a /\ attr_says h a v.

(** No attribute holds an entity reference. *)
Definition plain_attributes (h : heap) : Prop :=
  forall a na l c, h a = Some na -> n_type na = ATTRIBUTE -> children h a l -> In c l -> type_of h c = Some TEXT.

(** [x] is the first member of [l] that satisfies [P]; [None] when there is none. *)
Inductive first_that {A} (P : A -> Prop) : list A -> option A -> Prop :=
| ft_none : first_that P [] None
| ft_here x l : P x -> first_that P (x :: l) (Some x)
| ft_next x l o : ~ P x -> first_that P l o -> first_that P (x :: l) o.

(** ** The tree walker *)

(** What the client is asked at a stage, and what it answers: nothing is asked,
    and the walk goes on, when the mask does not have the stage. *)
Inductive asked (m : mask) (cb : callback) (s : stage) (i : id) (tr : list call) : list call -> cmd -> Prop :=
| asked_on : enabled m s = true -> asked m cb s i tr (tr ++ [(s, i)]) (cb (tr ++ [(s, i)]))
| asked_off : enabled m s = false -> asked m cb s i tr tr CONTINUE.

(** The visit of one node and of a list of siblings.  [tr] and [tr'] are the
    calls made before and after; the flag says that the client aborted. *)
Inductive visit (h : heap) (m : mask) (cb : callback) : id -> list call -> list call -> bool -> Prop :=
| v_abort i tr tr' : asked m cb ENTER i tr tr' ABORT -> visit h m cb i tr tr' true
| v_skip i tr tr1 tr2 c : asked m cb ENTER i tr tr1 SKIP -> asked m cb LEAVE i tr1 tr2 c ->
    visit h m cb i tr tr2 (match c with ABORT => true | _ => false end)
| v_inside i tr tr1 tr2 l : asked m cb ENTER i tr tr1 CONTINUE -> children h i l ->
    visits h m cb l tr1 tr2 true -> visit h m cb i tr tr2 true
| v_whole i tr tr1 tr2 tr3 l c : asked m cb ENTER i tr tr1 CONTINUE -> children h i l ->
    visits h m cb l tr1 tr2 false -> asked m cb LEAVE i tr2 tr3 c ->
    visit h m cb i tr tr3 (match c with ABORT => true | _ => false end)
with visits (h : heap) (m : mask) (cb : callback) : list id -> list call -> list call -> bool -> Prop :=
| vs_nil tr : visits h m cb [] tr tr false
| vs_stop i l tr tr' : visit h m cb i tr tr' true -> visits h m cb (i :: l) tr tr' true
| vs_cons i l tr tr1 tr2 b : visit h m cb i tr tr1 false -> visits h m cb l tr1 tr2 b ->
    visits h m cb (i :: l) tr tr2 b.

(** ** textContent *)

(** The data of the text and CDATA nodes among [ds], in order. *)
Inductive texts (h : heap) : list id -> list bytes -> Prop :=
| tx_nil : texts h [] []
| tx_text i n v l vs : h i = Some n -> n_type n = TEXT \/ n_type n = CDATA -> n_value n = Some v ->
    texts h l vs -> texts h (i :: l) (v :: vs)
| tx_other i n l vs : h i = Some n -> (n_type n <> TEXT /\ n_type n <> CDATA) \/ n_value n = None ->
    texts h l vs -> texts h (i :: l) vs.
Definition joined (vs : list bytes) : option bytes :=
  match vs with [] => None | _ => Some (concat vs) end.
