(** What attribute calls mean: an element has a list of entries, in the order the
    attributes were added, and the attributes have values. *)
From Coq Require Import List Arith NArith Bool.
From Verif Require Import Base StringModel StringSpec NameModel RingModel AttrModel.
Import ListNotations.
Local Open Scope dom_scope.

(** ** Calls *)
Inductive aop :=
| ANew (doc : nat) (ro quirks : bool)
| ASet (junk : bool * N * N) (e : nat) (ns : option bytes) (name : bytes) (v : option bytes)
| AGet (e : nat) (ns : option bytes) (name : bytes)
| AHas (e : nat) (ns : option bytes) (name : bytes)
| ARemove (e : nat) (ns : option bytes) (name : bytes)
| ALength (e : nat)
| AItem (e : nat) (i : N)
| AClass (e : nat) (c : bytes)
| ANode (e : nat) (ns : option bytes) (name : bytes)
| ASetNode (e : nat) (ns : option bytes) (a : nat)
| ARemoveNode (e : nat) (ns : option bytes) (a : nat)
| ACreate (junk : bool * N * N) (doc : nat) (local : bytes) (ns prefix : option bytes)
| AValue (a : nat)
| ASetValue (a : nat) (v : option bytes)
| AGetBool (a : nat) | ASetBool (a : nat) (b : bool)
| AGetShort (a : nat) | ASetShort (a : nat) (v : N)
| AGetInt (a : nat) | ASetInt (a : nat) (v : N)
| ARef (a : nat) | AUnref (a : nat)
| AName (a : nat).

Inductive aout := RVal (v : option bytes) | RBool (b : bool) | RNum (n : N) | RAttr (a : option nat) | RDone | RErr (e : exn).

Definition aexec (o : aop) : M ast aout :=
  match o with
  | ANew d ro qk => e <- new_element d ro qk ;; ret (RNum (N.of_nat e))
  | ASet j e ns k v => set_attr j e ns k v ;;; ret RDone
  | AGet e ns k => v <- get_attr e ns k ;; ret (RVal v)
  | AHas e ns k => b <- has_attr e ns k ;; ret (RBool b)
  | ARemove e ns k => remove_attr e ns k ;;; ret RDone
  | ALength e => n <- map_length e ;; ret (RNum n)
  | AItem e i => a <- map_item e i ;; ret (RAttr a)
  | AClass e c => b <- has_class e c ;; ret (RBool b)
  | ANode e ns k => a <- get_attr_node e ns k ;; ret (RAttr a)
  | ASetNode e ns a => r <- set_attr_node e ns a ;; ret (RAttr r)
  | ARemoveNode e ns a => r <- remove_attr_node e ns a ;; ret (RAttr (Some r))
  | ACreate j d l ns p => a <- attr_create j d l ns p ;; ret (RAttr (Some a))
  | AValue a => v <- attr_get_value a ;; ret (RVal (Some v))
  | ASetValue a v => attr_set_value a v ;;; ret RDone
  | AGetBool a => b <- attr_get_bool a ;; ret (RBool b)
  | ASetBool a b => attr_set_bool a b ;;; ret RDone
  | AGetShort a => b <- attr_get_short a ;; ret (RNum b)
  | ASetShort a b => attr_set_short a b ;;; ret RDone
  | AGetInt a => b <- attr_get_integer a ;; ret (RNum b)
  | ASetInt a b => attr_set_integer a b ;;; ret RDone
  | ARef a => attr_ref a ;;; ret RDone
  | AUnref a => attr_unref a ;;; ret RDone
  | AName a => v <- attr_get_name a ;; ret (RVal (Some v))
  end.

Definition no_ast : ast := mkAst (fun _ => None) (fun _ => None) (fun _ => None) (fun _ => None) 0 0 0.

(** ** Meaning *)
Record qel := mkQel { q_doc : nat; q_ro : bool; q_quirks : bool; q_ents : list lnode; q_cls : list bytes }.
Record attrs := mkAttrs { q_el : nat -> option qel; q_at : nat -> option attr; q_nel : nat; q_nat : nat }.
Definition no_attrs : attrs := mkAttrs (fun _ => None) (fun _ => None) 0 0.

Definition put_el Q e y := mkAttrs (put (q_el Q) e (Some y)) (q_at Q) (q_nel Q) (q_nat Q).
Definition put_at Q a x := mkAttrs (q_el Q) (put (q_at Q) a x) (q_nel Q) (q_nat Q).

(** The entry that a lookup means: the first with the name, and with the namespace
    if one is given. *)
Definition wanted (ns : option bytes) (name : bytes) (n : lnode) : bool :=
  (match ns with None => true | Some u => match l_ns n with Some w => bytes_eqb u w | None => false end end) && bytes_eqb name (l_name n).
Definition entry (ns : option bytes) (name : bytes) (l : list lnode) : option lnode := find (wanted ns name) l.

Definition value (x : attr) : bytes := kids_value (a_kids x).
(** The attribute as it is after its element or its owner gave it up. *)
Definition unless_free (x : attr) : option attr :=
  match a_parent x with None => if (a_ref x =? 0)%N then None else Some x | Some _ => Some x end.

Definition without_attr (a : nat) (l : list lnode) : list lnode := filter (fun n => negb (Nat.eqb (l_attr n) a)) l.
(** [e] loses the entry [n] whose attribute is [x]. *)
Definition drop (Q : attrs) (e : nat) (y : qel) (n : lnode) (x : attr) : attrs :=
  put_at (put_el Q e (mkQel (q_doc y) (q_ro y) (q_quirks y) (without_attr (l_attr n) (q_ents y))
                        (if is_class (l_ns n) (l_name n) then [] else q_cls y)))
         (l_attr n) (unless_free (set_aparent None x)).
(** [e] gains the attribute [a], which is [x], under this name. *)
Definition gain (Q : attrs) (e : nat) (y : qel) (a : nat) (ns : option bytes) (name : bytes) (x : attr) : attrs :=
  put_at (put_el Q e (mkQel (q_doc y) (q_ro y) (q_quirks y) (q_ents y ++ [mkLnode a name ns])
                        (if is_class ns name then class_split (c_string (value x)) [] else q_cls y)))
         a (Some (set_aparent (Some e) x)).

(** Setting the string of an attribute. *)
Definition writes (x : attr) (v : option bytes) : attr + exn :=
  if a_ro x then inr NO_MODIFICATION_ALLOWED_ERR
  else match a_type x with
       | UNSET | STRING => inl (set_kids [v] (set_type STRING x))
       | _ => inr ATTR_WRONG_TYPE_ERR
       end.

Definition attribute_name_ok (name : bytes) : bool :=
  match validate_attribute_name (Some name) tt with Ok b _ => b | _ => false end.

(** Setting a typed value. *)
Definition types (t : atype) (f : attr -> attr) (x : attr) : attr + exn :=
  match a_type x with
  | UNSET => inl (f (set_type t x))
  | _ => if atype_eqb (a_type x) t then inl (f x) else inr ATTR_WRONG_TYPE_ERR
  end.
Definition retype (Q : attrs) (a : nat) (r : attr + exn) : aout * attrs :=
  match r with inl x => (RDone, put_at Q a (Some x)) | inr e => (RErr e, Q) end.

Definition qualified (x : attr) : bytes := match a_prefix x with Some p => p ++ 58%N :: a_local x | None => a_local x end.

Definition qmeans (o : aop) (Q : attrs) : aout * attrs :=
  let on_el e (k : qel -> aout * attrs) := match q_el Q e with Some y => k y | None => (RDone, Q) end in
  let on_at a (k : attr -> aout * attrs) := match q_at Q a with Some x => k x | None => (RDone, Q) end in
  let give a x r := (r, put_at Q a (Some (set_aref (a_ref x + 1) x))) in
  match o with
  | ANew d ro qk => (RNum (N.of_nat (q_nel Q)), mkAttrs (put (q_el Q) (q_nel Q) (Some (mkQel d ro qk [] []))) (q_at Q) (S (q_nel Q)) (q_nat Q))
  | ASet (b, sh, i) e ns k v => on_el e (fun y =>
      if negb (attribute_name_ok k) then (RErr INVALID_CHARACTER_ERR, Q)
      else if q_ro y then (RErr NO_MODIFICATION_ALLOWED_ERR, Q)
      else match entry ns k (q_ents y) with
           | Some n => on_at (l_attr n) (fun x => retype Q (l_attr n) (writes x v))
           | None =>
               let a := q_nat Q in
               let Q' := gain Q e y a ns k (mkAttr k ns None (q_doc y) None [v] STRING b sh i false 0) in
               (RDone, mkAttrs (q_el Q') (q_at Q') (q_nel Q) (S a))
           end)
  | AGet e ns k => on_el e (fun y => match entry ns k (q_ents y) with
                                     | Some n => on_at (l_attr n) (fun x => (RVal (Some (value x)), Q))
                                     | None => (RVal None, Q)
                                     end)
  | AHas e ns k => on_el e (fun y => (RBool (match entry ns k (q_ents y) with Some _ => true | None => false end), Q))
  | ARemove e ns k => on_el e (fun y =>
      if q_ro y then (RErr NO_MODIFICATION_ALLOWED_ERR, Q)
      else match entry ns k (q_ents y) with
           | Some n => on_at (l_attr n) (fun x => (RDone, drop Q e y n x))
           | None => (RDone, Q)
           end)
  | ALength e => on_el e (fun y => (RNum (N.of_nat (length (q_ents y))), Q))
  | AItem e i => on_el e (fun y =>
      if (i <? N.of_nat (length (q_ents y)))%N then
        match nth_error (q_ents y) (N.to_nat i) with
        | Some n => on_at (l_attr n) (fun x => give (l_attr n) x (RAttr (Some (l_attr n))))
        | None => (RAttr None, Q)
        end
      else (RAttr None, Q))
  | AClass e c => on_el e (fun y => (RBool (existsb (fun k => if q_quirks y then bytes_eqb (map lower c) (map lower k) else bytes_eqb c k) (q_cls y)), Q))
  | ANode e ns k => on_el e (fun y => match entry ns k (q_ents y) with
                                      | Some n => on_at (l_attr n) (fun x => give (l_attr n) x (RAttr (Some (l_attr n))))
                                      | None => (RAttr None, Q)
                                      end)
  | ASetNode e ns a => on_el e (fun y => on_at a (fun x =>
      if negb (Nat.eqb (q_doc y) (a_doc x)) then (RErr WRONG_DOCUMENT_ERR, Q)
      else if q_ro y then (RErr NO_MODIFICATION_ALLOWED_ERR, Q)
      else if negb (match a_parent x with None => true | Some p => Nat.eqb p e end) then (RErr INUSE_ATTRIBUTE_ERR, Q)
      else match entry ns (a_local x) (q_ents y) with
           | None => (RAttr None, gain Q e y a ns (a_local x) x)
           | Some n => on_at (l_attr n) (fun x0 =>
               let Q1 := drop Q e y n (set_aref (a_ref x0 + 1) x0) in
               match q_el Q1 e, q_at Q1 a with
               | Some y1, Some x1 => (RAttr (Some (l_attr n)), gain Q1 e y1 a ns (a_local x) x1)
               | _, _ => (RDone, Q)
               end)
           end))
  | ARemoveNode e ns a => on_el e (fun y => on_at a (fun x =>
      if q_ro y then (RErr NO_MODIFICATION_ALLOWED_ERR, Q)
      else
        let q := qualified x in
        match entry ns q (q_ents y) with
        | Some n => if Nat.eqb (l_attr n) a then (RAttr (Some a), drop Q e y n (set_aref (a_ref x + 1) x)) else (RErr NOT_FOUND_ERR, Q)
        | None => (RErr NOT_FOUND_ERR, Q)
        end))
  | ACreate (b, sh, i) d l ns p =>
      (RAttr (Some (q_nat Q)), mkAttrs (q_el Q) (put (q_at Q) (q_nat Q) (Some (mkAttr l ns p d None [] UNSET b sh i false 1))) (q_nel Q) (S (q_nat Q)))
  | AValue a => on_at a (fun x => (RVal (Some (value x)), Q))
  | ASetValue a v => on_at a (fun x => retype Q a (writes x v))
  | AGetBool a => on_at a (fun x => (if atype_eqb (a_type x) BOOL then RBool (a_bool x) else RErr ATTR_WRONG_TYPE_ERR, Q))
  | ASetBool a b => on_at a (fun x => retype Q a (types BOOL (set_abool b) x))
  | AGetShort a => on_at a (fun x => (if atype_eqb (a_type x) SHORT then RNum (a_short x) else RErr ATTR_WRONG_TYPE_ERR, Q))
  | ASetShort a v => on_at a (fun x => retype Q a (types SHORT (set_ashort v) x))
  | AGetInt a => on_at a (fun x => (if atype_eqb (a_type x) INTEGER then RNum (a_int x) else RErr ATTR_WRONG_TYPE_ERR, Q))
  | ASetInt a v => on_at a (fun x => retype Q a (types INTEGER (set_aint v) x))
  | ARef a => on_at a (fun x => (RDone, put_at Q a (Some (set_aref (a_ref x + 1) x))))
  | AUnref a => on_at a (fun x => (RDone, put_at Q a (unless_free (set_aref (a_ref x - 1) x))))
  | AName a => on_at a (fun x => (RVal (Some (qualified x)), Q))
  end.

(** ** Careful callers *)

(** The client owns a reference. *)
Definition owned (Q : attrs) (a : nat) : Prop := exists x, q_at Q a = Some x /\ (0 < a_ref x)%N.
Definition an_element (Q : attrs) (e : nat) : Prop := q_el Q e <> None.
Definition a_name (k : bytes) : Prop := exists cs, text cs /\ k = encoded cs.

Definition alegal (Q : attrs) (o : aop) : Prop :=
  match o with
  | ANew _ _ _ => True
  | ASet _ e _ k _ => an_element Q e /\ a_name k
  | AGet e _ _ | AHas e _ _ | ARemove e _ _ | ALength e | AClass e _ | ANode e _ _ => an_element Q e
  | AItem e i => an_element Q e /\ (i < 4294967296)%N
  (* not the first attribute may be replaced, and the new one not be there already
     under another entry *)
  | ASetNode e ns a => an_element Q e /\ owned Q a /\
      (forall y x n, q_el Q e = Some y -> q_at Q a = Some x -> entry ns (a_local x) (q_ents y) = Some n -> hd_error (q_ents y) <> Some n) /\
      (forall y x m, q_el Q e = Some y -> q_at Q a = Some x -> In m (q_ents y) -> l_attr m = a -> entry ns (a_local x) (q_ents y) = Some m)
  | ARemoveNode e _ a => an_element Q e /\ owned Q a
  | ACreate _ _ _ _ _ => True
  (* the attribute has an element *)
  | ASetValue a _ => owned Q a /\ exists x, q_at Q a = Some x /\ a_parent x <> None
  | AValue a | AGetBool a | ASetBool a _ | AGetShort a | ASetShort a _ | AGetInt a | ASetInt a _ | ARef a | AUnref a | AName a => owned Q a
  end.

(** Histories: the state of the code, the meaning of the calls, the answers. *)
Inductive areach : nat -> ast -> attrs -> Prop :=
| ar_start : areach 0 no_ast no_attrs
| ar_ok k s Q o r s' : areach k s Q -> alegal Q o -> aexec o s = Ok r s' -> areach (S k) s' (snd (qmeans o Q))
| ar_exc k s Q o e s' : areach k s Q -> alegal Q o -> aexec o s = Exc e s' -> areach (S k) s' (snd (qmeans o Q)).

(** The answer of a call; [None] if it goes wrong. *)
Definition answer (r : res ast aout) : option aout := match r with Ok a _ => Some a | Exc e _ => Some (RErr e) | Bad _ => None end.
