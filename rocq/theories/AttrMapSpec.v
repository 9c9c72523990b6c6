(** Attributes as dictionaries: what C27, C28 and C29 speak of. *)
From Coq Require Import List Arith NArith Bool.
From Verif Require Import Base StringModel AttrModel AttrSpec.
Import ListNotations.

(** ** Dictionaries in order of insertion *)
Definition key := (option bytes * bytes)%type.
Definition key_eqb (a b : key) : bool := opt_eqb bytes_eqb (fst a) (fst b) && bytes_eqb (snd a) (snd b).
Definition dict := list (key * bytes).
Definition lookup (d : dict) (c : key) : option bytes := option_map snd (find (fun p => key_eqb (fst p) c) d).
Definition store (d : dict) (c : key) (v : bytes) : dict :=
  match lookup d c with
  | Some _ => map (fun p => if key_eqb (fst p) c then (c, v) else p) d
  | None => d ++ [(c, v)]
  end.
Definition delete (d : dict) (c : key) : dict := filter (fun p => negb (key_eqb (fst p) c)) d.

(** ** What calls do to the dictionaries of the elements *)

(** Elements by number: whether they are read-only, and their dictionary. *)
Record world := mkWorld { w_el : nat -> option (bool * dict); w_n : nat }.
Definition no_world : world := mkWorld (fun _ => None) 0.
Definition put_dict W e d := mkWorld (put (w_el W) e (Some (false, d))) (w_n W).

(** A NULL value reads as the empty string. *)
Definition shown (v : option bytes) : bytes := match v with Some b => b | None => [] end.

Definition writes_dict (o : aop) (W : world) : world :=
  match o with
  | ANew _ ro _ => mkWorld (put (w_el W) (w_n W) (Some (ro, []))) (S (w_n W))
  | ASet _ e ns k v =>
      match w_el W e with
      | Some (false, d) => if attribute_name_ok k then put_dict W e (store d (ns, k) (shown v)) else W
      | _ => W
      end
  | ARemove e ns k =>
      match w_el W e with Some (false, d) => put_dict W e (delete d (ns, k)) | _ => W end
  | _ => W
  end.

(** ** Histories *)

(** Calls by name, looks at attributes, typed values; not setAttributeNode,
    removeAttributeNode and the setting of an attribute's value through the
    attribute. *)
Definition by_name (o : aop) : Prop :=
  match o with ASetNode _ _ _ | ARemoveNode _ _ _ | ASetValue _ _ => False | _ => True end.

(** Histories of such calls that also satisfy [P]. *)
Inductive dreach (P : world -> aop -> Prop) : nat -> ast -> attrs -> world -> Prop :=
| dr_start : dreach P 0 no_ast no_attrs no_world
| dr_ok k s Q W o r s' : dreach P k s Q W -> by_name o -> P W o -> alegal Q o -> aexec o s = Ok r s' ->
    dreach P (S k) s' (snd (qmeans o Q)) (writes_dict o W)
| dr_exc k s Q W o e s' : dreach P k s Q W -> by_name o -> P W o -> alegal Q o -> aexec o s = Exc e s' ->
    dreach P (S k) s' (snd (qmeans o Q)) (writes_dict o W).

(** The namespace and name that a call on an element gives. *)
Definition asks (o : aop) : option (nat * key) :=
  match o with
  | ASet _ e ns k _ | AGet e ns k | AHas e ns k | ARemove e ns k | ANode e ns k => Some (e, (ns, k))
  | _ => None
  end.
(** No namespaces at all. *)
Definition plain (_ : world) (o : aop) : Prop := forall e ns k, asks o = Some (e, (ns, k)) -> ns = None.
(** A call without a namespace gives a name that no namespaced attribute of the
    element has. *)
Definition unambiguous (W : world) (o : aop) : Prop :=
  forall e k ro d, asks o = Some (e, (None, k)) -> w_el W e = Some (ro, d) -> forall u, lookup d (Some u, k) = None.
(** Also, the class attribute is only set where there is none. *)
Definition class_key : key := (None, s_class).
Definition class_once (W : world) (o : aop) : Prop :=
  unambiguous W o /\
  match o with ASet _ e None k _ => forall ro d, w_el W e = Some (ro, d) -> k = s_class -> lookup d class_key = None | _ => True end.

(** ** Class names: the words of a value *)
Definition blank (c : N) : bool := (c =? 32)%N || (c =? 9)%N || (c =? 10)%N || (c =? 12)%N || (c =? 13)%N.
Definition word (c v : bytes) : Prop :=
  c <> [] /\ forallb (fun x => negb (blank x)) c = true /\
  exists pre post, v = pre ++ c ++ post /\
    (pre = [] \/ exists p x, pre = p ++ [x] /\ blank x = true) /\
    (post = [] \/ exists x p, post = x :: p /\ blank x = true).
(** Values whose only blanks are spaces, and no NUL. *)
Definition spaced (v : bytes) : Prop := Forall (fun c => c <> 0%N /\ (blank c = true -> c = 32%N)) v.
