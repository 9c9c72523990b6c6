(** What a token list means: the set of the words of its attribute, in order. *)
From Coq Require Import List Arith NArith Bool.
From Verif Require Import Base TokenModel.
Import ListNotations.

(** ** Tokens of a value *)
(** The non-empty pieces between spaces. *)
Fixpoint pieces (v w : bytes) : list bytes :=
  match v with
  | [] => match w with [] => [] | _ => [w] end
  | c :: v => if (c =? 32)%N then match w with [] => pieces v [] | _ => w :: pieces v [] end else pieces v (w ++ [c])
  end.
Definition mem (t : bytes) (l : list bytes) : bool := existsb (bytes_eqb t) l.
(** Each once, at its first place. *)
Definition once (l : list bytes) : list bytes := fold_left (fun acc t => if mem t acc then acc else acc ++ [t]) l [].
Definition tokens (v : option bytes) : list bytes := match v with Some b => once (pieces b []) | None => [] end.
Fixpoint join (l : list bytes) : bytes := match l with [] => [] | [t] => t | t :: l => t ++ 32%N :: join l end.
Definition without (t : bytes) (l : list bytes) : list bytes := filter (fun x => negb (bytes_eqb t x)) l.

(** ** Calls *)
Inductive top :=
| TNew | TLength (i : nat) | TItem (i : nat) (n : N) | TContains (i : nat) (t : bytes) | TAdd (i : nat) (t : bytes) | TRemove (i : nat) (t : bytes)
| TValue (i : nat) | TSetValue (i : nat) (v : option bytes)
(* getAttribute, setAttribute and removeAttribute on the element *)
| EGet | ESet (v : option bytes) | ERemove.
Inductive tout := TNum (n : N) | TStr (v : option bytes) | TBool (b : bool) | TDone.

Definition texec (o : top) : M tst tout :=
  (match o with
  | TNew => i <- create ;; ret (TNum (N.of_nat i))
  | TLength i => n <- get_length i ;; ret (TNum n)
  | TItem i n => v <- item i n ;; ret (TStr v)
  | TContains i t => b <- contains i t ;; ret (TBool b)
  | TAdd i t => add i t ;;; ret TDone
  | TRemove i t => remove i t ;;; ret TDone
  | TValue i => v <- get_value i ;; ret (TStr v)
  | TSetValue i v => set_value i v ;;; ret TDone
  | EGet => v <- get_attribute ;; ret (TStr v)
  | ESet v => set_attribute v ;;; ret TDone
  | ERemove => remove_attribute ;;; ret TDone
  end)%dom.

(** ** Meaning: the value of the attribute, and what each list last wrote *)
Record tmean := mkTmean { m_value : option bytes; m_wrote : list (option bytes) }.

Definition wrote (w : tmean) (i : nat) (v : bytes) : tmean := mkTmean (Some v) (replace i (Some v) (m_wrote w)).
Definition tmeans (o : top) (w : tmean) : tout * tmean :=
  let ts := tokens (m_value w) in
  match o with
  | TNew => (TNum (N.of_nat (length (m_wrote w))), mkTmean (m_value w) (m_wrote w ++ [None]))
  | TLength _ => (TNum (N.of_nat (length ts)), w)
  | TItem _ n => (TStr (if (n <? N.of_nat (length ts))%N then nth_error ts (N.to_nat n) else None), w)
  | TContains _ t => (TBool (mem t ts), w)
  | TAdd i t => (TDone, if mem t ts then w else wrote w i (join (ts ++ [t])))
  | TRemove i t => (TDone, wrote w i (join (without t ts)))
  | TValue _ | EGet => (TStr (m_value w), w)
  | TSetValue _ v | ESet v => (TDone, mkTmean (Some (shown v)) (m_wrote w))
  | ERemove => (TDone, mkTmean None (m_wrote w))
  end.

(** ** Careful callers *)
(** ASCII that fits a string. *)
Definition fits (v : bytes) : Prop := Forall (fun c => (c < 128)%N) v /\ (N.of_nat (length v) < 4294967295)%N.
Definition a_token (t : bytes) : Prop := t <> [] /\ Forall (fun c => (c < 128)%N /\ c <> 32%N) t.
(** The attribute changes to [v]; no list but [by_] last wrote just that, unless the
    tokens are the same as before. *)
Definition no_echo (w : tmean) (by_ : option nat) (v : option bytes) : Prop :=
  forall j, by_ <> Some j -> nth_error (m_wrote w) j = Some (Some (shown v)) -> tokens (m_value w) = tokens v.
Definition tlegal (w : tmean) (o : top) : Prop :=
  let ts := tokens (m_value w) in
  let there i := i < length (m_wrote w) in
  match o with
  | TNew | EGet => True
  | TLength i | TItem i _ | TContains i _ | TValue i => there i
  | TAdd i t => there i /\ a_token t /\ fits (join (ts ++ [t])) /\ (mem t ts = false -> no_echo w (Some i) (Some (join (ts ++ [t]))))
  | TRemove i t => there i /\ no_echo w (Some i) (Some (join (without t ts)))
  | TSetValue i v => there i /\ fits (shown v) /\ no_echo w None (Some (shown v))
  | ESet v => fits (shown v) /\ no_echo w None (Some (shown v))
  | ERemove => no_echo w None None
  end.

(** Histories; the attribute starts absent. *)
Inductive treach : tst -> tmean -> Prop :=
| tr_start : treach (mkTst None []) (mkTmean None [])
| tr_call s w o r s' : treach s w -> tlegal w o -> texec o s = Ok r s' -> treach s' (snd (tmeans o w)).
(** Histories of any calls on lists that are there. *)
Inductive anyhow : tst -> Prop :=
| an_start : anyhow (mkTst None [])
| an_call s o r s' : anyhow s -> texec o s = Ok r s' -> anyhow s'.
