(** Model of the modifier keys of keyboard, mouse and wheel events. *)
From Coq Require Import List NArith Bool Arith Ascii String.
From Verif Require Import Base.
Import ListNotations.
Local Open Scope N_scope.

(** The bytes of a literal of the source. *)
Definition lit (s : string) : list N := map N_of_ascii (list_ascii_of_string s).
(** [len == SLEN(lit) && strncmp(m, lit, len) == 0]; [m] has no NUL in its first [len] bytes
    where the source compares, keyboard_event.c:211-230. *)
Definition is_lit (w : list N) (s : string) : bool := if list_eq_dec N.eq_dec w (lit s) then true else false.

(** The bits, src/events/ui_event.h:18-27. *)
Definition mod_ctrl := 1.
Definition mod_meta := 2.
Definition mod_shift := 4.
Definition mod_alt := 8.
Definition mod_alt_graph := 16.
Definition mod_caps_lock := 32.
Definition mod_num_lock := 64.
Definition mod_scroll := 128.

Definition has_bit (st bit : N) : bool := negb (N.land st bit =? 0).

(** _dom_keyboard_event_get_modifier_state, keyboard_event.c:197-234, and
    _dom_mouse_event_get_modifier_state, mouse_event.c:222-259: the two bodies are the
    same.  [prev] is what the caller's variable holds before the call. *)
Definition get_modifier_state (st : N) (m : option (list N)) (prev : bool) : bool :=
  match m with
  | None => false
  | Some w =>
      if is_lit w "AltGraph" then has_bit st mod_alt_graph
      else if is_lit w "Alt" then has_bit st mod_alt
      else if is_lit w "CapsLock" then has_bit st mod_caps_lock
      else if is_lit w "Control" then has_bit st mod_ctrl
      else if is_lit w "Meta" then has_bit st mod_meta
      else if is_lit w "NumLock" then has_bit st mod_num_lock
      else if is_lit w "Scroll" then has_bit st mod_scroll
      else if is_lit w "Shift" then has_bit st mod_shift
      else prev
  end.

(** The token test of _dom_parse_modifier_list, keyboard_event.c:410-442. *)
Definition add_token (w : list N) (st : N) : N :=
  if is_lit w "AltGraph" then N.lor st mod_alt_graph
  else if is_lit w "Alt" then N.lor st mod_alt
  else if is_lit w "CapsLock" then N.lor st mod_caps_lock
  else if is_lit w "Control" then N.lor st mod_ctrl
  else if is_lit w "Meta" then N.lor st mod_meta
  else if is_lit w "NumLock" then N.lor st mod_num_lock
  else if is_lit w "Scroll" then N.lor st mod_scroll
  else if is_lit w "Shift" then N.lor st mod_shift
  else st.

(** [*data], the string being NUL-terminated. *)
Definition at_data (d : list N) : N := match d with [] => 0 | c :: _ => c end.
(** [while ( *data == ' ') data++], keyboard_event.c:444-446. *)
Fixpoint skip_blanks (d : list N) : list N :=
  match d with 32 :: r => skip_blanks r | _ => d end.

(** The loop of _dom_parse_modifier_list, keyboard_event.c:406-458: [m] and [data] are
    the strings the two pointers point at. *)
Fixpoint modifier_loop (fuel : nat) (m : list N) (len : nat) (data : list N) (st : N) : option N :=
  match fuel with
  | O => None
  | S f =>
      if (at_data data =? 32) || (at_data data =? 0) then
        let st := add_token (firstn len m) st in
        let data := skip_blanks data in
        if at_data data =? 0 then Some st
        else modifier_loop f data 1 (tl data) st
      else modifier_loop f m (S len) (tl data) st
  end.

(** _dom_parse_modifier_list, keyboard_event.c:391-460; no result means the loop ran
    out of fuel. *)
Definition parse_modifiers (l : option (list N)) : option N :=
  match l with
  | None => Some 0
  | Some d => modifier_loop (S (List.length d)) d 0 d 0
  end.

(** The modifier part of a keyboard event; it is zero in a new one,
    keyboard_event.c:23-32 (calloc) and 41-56. *)
Definition new_keyboard : N := 0.
(** _dom_keyboard_event_init_helper, keyboard_event.c:249-290, as reached by
    _dom_keyboard_event_init (310-334) and _dom_keyboard_event_init_ns (358-381). *)
Definition keyboard_init (st : N) (ctrl shift alt meta : bool) : N :=
  let st := if ctrl then N.lor st mod_ctrl else st in
  let st := if shift then N.lor st mod_shift else st in
  let st := if alt then N.lor st mod_alt else st in
  if meta then N.lor st mod_meta else st.

(** _dom_mouse_event_initialise, mouse_event.c:43-48. *)
Definition new_mouse : N := 0.
(** _dom_mouse_event_init and _dom_mouse_event_init_ns, mouse_event.c:281-316 and
    340-374. *)
Definition mouse_init (st : N) (ctrl alt shift meta : bool) : N :=
  let st := 0 in
  let st := if ctrl then N.lor st mod_ctrl else st in
  let st := if alt then N.lor st mod_alt else st in
  let st := if shift then N.lor st mod_shift else st in
  if meta then N.lor st mod_meta else st.

(** _dom_mouse_wheel_event_init_ns, mouse_wheel_event.c:96-117, and
    _dom_mouse_multi_wheel_event_init_ns, mouse_multi_wheel_event.c:130-154. *)
Definition wheel_init (st : N) (l : option (list N)) : option N :=
  match parse_modifiers l with
  | None => None
  | Some st => Some (mouse_init st false false false false)
  end.

(** The four key getters: _dom_keyboard_event_get_ctrl_key and so on,
    keyboard_event.c:131-182; mouse_event.c:126-177. *)
Definition ctrl_key (st : N) : bool := has_bit st mod_ctrl.
Definition shift_key (st : N) : bool := has_bit st mod_shift.
Definition alt_key (st : N) : bool := has_bit st mod_alt.
Definition meta_key (st : N) : bool := has_bit st mod_meta.
