(** Specification of the modifier keys of events. *)
From Coq Require Import List NArith Bool String.
From Verif Require Import Base ModModel.
Import ListNotations.
Local Open Scope N_scope.

Inductive modifier := Control | Meta | Shift | Alt | AltGraph | CapsLock | NumLock | Scroll.

(** The names by which clients ask for them. *)
Definition key_name (m : modifier) : list N :=
  match m with
  | Control => [67;111;110;116;114;111;108]
  | Meta => [77;101;116;97]
  | Shift => [83;104;105;102;116]
  | Alt => [65;108;116]
  | AltGraph => [65;108;116;71;114;97;112;104]
  | CapsLock => [67;97;112;115;76;111;99;107]
  | NumLock => [78;117;109;76;111;99;107]
  | Scroll => [83;99;114;111;108;108]
  end.

(** [w] is one of the words of [l]: it stands between blanks or ends of [l]. *)
Definition word_of (l w : list N) : Prop :=
  w <> [] /\ ~ In 32 w /\ exists a b, l = a ++ w ++ b /\ (a = [] \/ exists a', a = a' ++ [32]) /\ (b = [] \/ exists b', b = 32 :: b').

(** getModifierState answers [b], whatever the caller's variable held before. *)
Definition reads (st : N) (m : modifier) (b : bool) : Prop := forall prev, get_modifier_state st (Some (key_name m)) prev = b.

(** One call of the init function of a keyboard or mouse event. *)
Record keys := mkKeys { k_ctrl : bool; k_shift : bool; k_alt : bool; k_meta : bool }.
Definition asked (k : keys) (m : modifier) : bool :=
  match m with Control => k_ctrl k | Shift => k_shift k | Alt => k_alt k | Meta => k_meta k | _ => false end.
Definition keyboard_after (st : N) (l : list keys) : N :=
  fold_left (fun st k => keyboard_init st (k_ctrl k) (k_shift k) (k_alt k) (k_meta k)) l st.
Definition mouse_after (st : N) (l : list keys) : N :=
  fold_left (fun st k => mouse_init st (k_ctrl k) (k_alt k) (k_shift k) (k_meta k)) l st.
