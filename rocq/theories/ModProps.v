(** C56: the modifier keys of events. *)
From Coq Require Import List NArith Bool.
From Verif Require Import Base ModModel ModSpec ModProofs.
Import ListNotations.
Local Open Scope N_scope.

(** A mouse event reports the keys of its last initialisation. *)
Theorem C56_mouse : forall l k st m, reads (mouse_after st (l ++ [k])) m (asked k m).
Proof. exact mouse_last. Qed.

(** The four getters agree with getModifierState. *)
Theorem C56_getters : forall st, (forall b, ctrl_key st = b <-> reads st Control b) /\ (forall b, shift_key st = b <-> reads st Shift b) /\
  (forall b, alt_key st = b <-> reads st Alt b) /\ (forall b, meta_key st = b <-> reads st Meta b).
Proof. exact getters. Qed.

(** A keyboard event initialised once reports its keys; initialised several times, it
    reports the keys of all its initialisations together. *)
Theorem C56_keyboard_once_partial : forall k m, reads (keyboard_after new_keyboard [k]) m (asked k m).
Proof. exact keyboard_once. Qed.
Theorem C56_keyboard_partial : forall l m b, reads (keyboard_after new_keyboard l) m b <-> (b = true <-> exists k, In k l /\ asked k m = true).
Proof. exact keyboard_history. Qed.
Theorem C56_keyboard_refuted : forall st k m, reads st m true -> reads (keyboard_after st [k]) m true.
Proof. exact keyboard_sticks. Qed.

(** A list of modifier names is read word by word. *)
Theorem C56_list_partial : forall l, ~ In 0 l -> exists st, parse_modifiers (Some l) = Some st /\ forall m b, reads st m b <-> (b = true <-> word_of l (key_name m)).
Proof. exact parse_ok. Qed.
(** But no wheel event ever reports a modifier, whatever its list says. *)
Theorem C56_wheel_refuted : forall st l, exists st', wheel_init st l = Some st' /\ forall m, reads st' m false.
Proof. exact wheel_forgets. Qed.

(** Asked for a name that is no modifier, the call leaves the caller's variable as
    it was. *)
Theorem C56_unknown_refuted : forall st w prev, (forall m, w <> key_name m) -> get_modifier_state st (Some w) prev = prev.
Proof. exact unknown_key. Qed.

(** " Shift  Control" has two words. *)
Example C56_case : exists l st, ~ In 0 l /\ parse_modifiers (Some l) = Some st /\ reads st Shift true /\ reads st Control true /\ reads st Alt false /\
  word_of l (key_name Control) /\ wheel_init 0 (Some l) = Some 0.
Proof.
  exists ([32;83;104;105;102;116;32;32] ++ key_name Control ++ []), 5. split; [cbn; intuition discriminate|]. split; [vm_compute; reflexivity|].
  split; [intros []; vm_compute; reflexivity|]. split; [intros []; vm_compute; reflexivity|]. split; [intros []; vm_compute; reflexivity|]. split; [|vm_compute; reflexivity].
  split; [discriminate|]. split; [cbn; intuition discriminate|]. exists [32;83;104;105;102;116;32;32], []. split; auto. split; [right; exists [32;83;104;105;102;116;32]; reflexivity|auto].
Qed.
(** Control, then Shift: both stay on a keyboard event, the mouse event has Shift. *)
Example C56_keys_case : let c := mkKeys true false false false in let s := mkKeys false true false false in
  reads (keyboard_after new_keyboard [c; s]) Control true /\ asked s Control = false /\ reads (mouse_after new_mouse [c; s]) Control false /\ reads (mouse_after new_mouse [c; s]) Shift true.
Proof. repeat split; intros []; vm_compute; reflexivity. Qed.
(** "alt" is no name. *)
Example C56_unknown_case : forall m, [97;108;116] <> key_name m.
Proof. intros []; discriminate. Qed.

Definition C56_theorems := (C56_mouse, C56_getters, C56_keyboard_once_partial, C56_keyboard_partial, C56_keyboard_refuted, C56_list_partial, C56_wheel_refuted, C56_unknown_refuted).
Print Assumptions C56_theorems.
