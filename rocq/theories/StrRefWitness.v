(** Concrete histories of strings, elements and controls. *)
From Coq Require Import List NArith Bool Arith Lia.
From Verif Require Import Base StringModel StrRefModel StrRefSpec.
Import ListNotations.
Local Open Scope dom_scope.

Definition inb (i : nat) (l : list nat) : bool := existsb (Nat.eqb i) l.
Definition optb (l : list nat) (o : option nat) : bool := match o with Some i => inb i l | None => true end.
Definition kind (s : cst) (e : nat) : nat :=
  match el_at s e with Some x => match e_ctl x with Plain => 1 | Input _ _ _ _ _ _ _ _ => 2 | Area _ _ _ _ _ => 3 end | None => 0 end.
Definition legalb (own : list nat) (s : cst) (o : sop) : bool :=
  match o with
  | SNew _ | STitle => true
  | SRef i | SRelease i | SElement i => inb i own
  | SElementNS ns q => optb own ns && inb q own
  | SDestroy e | SCopy e => Nat.leb 1 (kind s e)
  | SSetTitle t => optb own t
  | SSetValue e v | SSetDefault e v => optb own v && Nat.leb 2 (kind s e)
  | SValue e | SDefault e => Nat.leb 2 (kind s e)
  | SSetText e v => optb own v && Nat.eqb (kind s e) 3
  | SAttr e n v => inb n own && (inb v own && Nat.leb 1 (kind s e))
  | SSetChecked e _ | SChecked e | SSetDChecked e _ | SDChecked e => Nat.eqb (kind s e) 2
  end.
Definition calmb (s : cst) (o : sop) : bool :=
  match o with SElementNS (Some n) _ => match text s n with Some b => negb (bytes_eqb b svg_ns) | None => true end | _ => true end.

Lemma inb_ok i l : inb i l = true -> In i l.
Proof. unfold inb. intro H. apply existsb_exists in H as (x & I & E). apply Nat.eqb_eq in E. subst. exact I. Qed.
Lemma optb_ok l o : optb l o = true -> opt_in l o.
Proof. destruct o; cbn; [apply inb_ok|auto]. Qed.
Lemma kind_ok s e : (Nat.leb 1 (kind s e) = true -> there s e) /\ (Nat.leb 2 (kind s e) = true -> input s e \/ area s e) /\
  (Nat.eqb (kind s e) 2 = true -> input s e) /\ (Nat.eqb (kind s e) 3 = true -> area s e).
Proof.
  unfold kind. destruct (el_at s e) as [x|] eqn:E; [|repeat split; discriminate].
  destruct (e_ctl x) as [|dv dvs v vs a b c d|dv dvs v vs t] eqn:C.
  - split; [intros _; exists x; exact E|]. repeat split; discriminate.
  - assert (input s e) by (exists x, dv, dvs, v, vs, a, b, c, d; auto).
    split; [intros _; exists x; exact E|]. split; [auto|]. split; [auto|discriminate].
  - assert (area s e) by (exists x, dv, dvs, v, vs, t; auto).
    split; [intros _; exists x; exact E|]. split; [auto|]. split; [discriminate|auto].
Qed.
Lemma legalb_ok own s o : legalb own s o = true -> slegal own s o.
Proof.
  destruct o; cbn [legalb slegal]; intro H; repeat (apply andb_prop in H as [? H]); auto using inb_ok, optb_ok;
    try (split; auto using inb_ok, optb_ok); try (split; auto using inb_ok, optb_ok); try (apply (kind_ok s e); assumption).
Qed.
Lemma calmb_ok s o : calmb s o = true -> calm s o.
Proof.
  destruct o as [| | | |[n|] q| | | | | | | | | | | | | |]; cbn [calmb calm]; auto. destruct (text s n) as [b|]; [|discriminate].
  intros H Z. injection Z as ->. discriminate.
Qed.

Definition sst : Type := (cst * list nat * list nat)%type.
Definition sstep (o : sop) (t : sst) : option sst :=
  let '(s, own, lost) := t in
  if legalb own s o && calmb s o then
    match sexec o s with
    | Ok u s' => Some (s', own_after own o u, loses s o ++ lost)
    | Exc _ s' => Some (s', own, lost)
    | Bad _ => None
    end
  else None.
Fixpoint splay (os : list sop) (t : sst) : option sst :=
  match os with [] => Some t | o :: r => match sstep o t with Some t' => splay r t' | None => None end end.
Definition start : sst := (blank, [], []).
Definition got (os : list sop) : sst := match splay os start with Some t => t | None => start end.
Definition st_of (os : list sop) : cst := fst (fst (got os)).
Definition own_of (os : list sop) : list nat := snd (fst (got os)).
Definition lost_of (os : list sop) : list nat := snd (got os).
Definition fine (os : list sop) : bool := match splay os start with Some _ => true | None => false end.

Lemma step_reach k o s own lost s' own' lost' : sreach k s own lost -> sstep o (s, own, lost) = Some (s', own', lost') ->
  sreach (S k) s' own' lost'.
Proof.
  intros R. unfold sstep. destruct (legalb own s o) eqn:L; [|discriminate]. destruct (calmb s o) eqn:C; [|discriminate]. cbn [andb].
  apply legalb_ok in L. apply calmb_ok in C. destruct (sexec o s) as [u s1|x s1|b] eqn:E; [| |discriminate]; intro H; injection H as <- <- <-.
  - exact (sr_ok _ _ _ _ _ _ _ R L C E).
  - exact (sr_exc _ _ _ _ _ _ _ R L C E).
Qed.
Lemma play_reach os k t t' : sreach k (fst (fst t)) (snd (fst t)) (snd t) -> splay os t = Some t' ->
  sreach (length os + k) (fst (fst t')) (snd (fst t')) (snd t').
Proof.
  revert k t. induction os as [|o os IH]; intros k t R H; cbn [splay] in H.
  - injection H as <-. exact R.
  - destruct (sstep o t) as [t1|] eqn:E; [|discriminate]. destruct t as [[s own] lost]. destruct t1 as [[s1 own1] lost1].
    cbn [length]. rewrite plus_Sn_m, plus_n_Sm. apply (IH _ (s1, own1, lost1)); [|exact H]. exact (step_reach _ _ _ _ _ _ _ _ R E).
Qed.
Lemma played_sreach os : fine os = true -> sreach (length os) (st_of os) (own_of os) (lost_of os).
Proof.
  unfold fine, st_of, own_of, lost_of, got. destruct (splay os start) as [t|] eqn:E; [|discriminate]. intros _.
  assert (R := play_reach os 0 start t sr_start E). rewrite Nat.add_0_r in R. exact R.
Qed.

Definition sval {A} (r : res cst A) : option (A + exn) := match r with Ok a _ => Some (inl a) | Exc e _ => Some (inr e) | Bad _ => None end.
Lemma sval_ok {A} (r : res cst A) a : sval r = Some (inl a) -> exists s, r = Ok a s.
Proof. destruct r as [b s|e s|b]; cbn; intro H; inversion H; eauto. Qed.
Lemma sval_two {A} o1 o2 s (P : cst -> option A) u1 u2 p :
  match sexec o1 s with Ok u s1 => match sexec o2 s1 with Ok u' _ => Some (u, u', P s1) | _ => None end | _ => None end = Some (u1, u2, p) ->
  exists s1 s2, sexec o1 s = Ok u1 s1 /\ sexec o2 s1 = Ok u2 s2 /\ P s1 = p.
Proof.
  destruct (sexec o1 s) as [u s1|e s1|b]; try discriminate. destruct (sexec o2 s1) as [u' s2|e s2|b] eqn:E; try discriminate.
  intro H. injection H as -> -> <-. exists s1, s2. auto.
Qed.

(** "TEXTAREA", "x", "y", "VALUE", "input", "g", "p:g" *)
Definition t_area : bytes := [116;101;120;116;97;114;101;97]%N.
Definition t_input : bytes := [105;110;112;117;116]%N.
Definition t_value : bytes := [86;97;108;117;101]%N.
Definition t_x : bytes := [120]%N.
Definition t_y : bytes := [121]%N.
Definition t_pg : bytes := [112;58;103]%N.

(** A TEXTAREA with a text, read twice, and everything is released. *)
Definition leaky : list sop :=
  [SNew t_area; SElement 0; SNew t_x; SSetText 0 (Some 2); SValue 0; SValue 0;
   SRelease 0; SRelease 2; SRelease 2; SRelease 2; SDestroy 0].
Lemma leak_case : exists k s own lost i b, sreach k s own lost /\ brief k /\ own = [] /\ kept s = [] /\ text s i = Some b.
Proof.
  exists 11, (st_of leaky), (own_of leaky), (lost_of leaky), 2, t_x.
  split; [apply (played_sreach leaky); vm_compute; reflexivity|]. split; [unfold brief, two32; lia|].
  split; [vm_compute; reflexivity|]. split; [vm_compute; reflexivity|vm_compute; reflexivity].
Qed.

(** Two elements, a title and values that share strings. *)
Definition busy : list sop :=
  [SNew t_input; SElement 0; SNew t_x; SSetValue 0 (Some 2); SSetDefault 0 (Some 2); SSetTitle (Some 2);
   SCopy 0; SValue 1; SNew t_pg; SElementNS (Some 2) 3; SRelease 0].
Lemma busy_case : sreach 11 (st_of busy) (own_of busy) (lost_of busy) /\ brief 11 /\
  refs (st_of busy) 2 = 8%N /\ times 2 (own_of busy) = 2%N /\ times 2 (kept (st_of busy)) = 6%N /\ text (st_of busy) 0 = None /\
  slegal (own_of busy) (st_of busy) (SDestroy 0).
Proof.
  split; [apply (played_sreach busy); vm_compute; reflexivity|]. split; [unfold brief, two32; lia|].
  split; [vm_compute; reflexivity|]. split; [vm_compute; reflexivity|]. split; [vm_compute; reflexivity|]. split; [vm_compute; reflexivity|].
  apply legalb_ok. vm_compute. reflexivity.
Qed.

(** The namespace and names for SVG. *)
Definition svgs : list sop := [SNew svg_ns; SNew t_x; SNew t_pg].
Lemma svg_case : sreach 3 (st_of svgs) (own_of svgs) (lost_of svgs) /\ brief 3 /\ In 0 (own_of svgs) /\ In 1 (own_of svgs) /\ In 2 (own_of svgs) /\
  text (st_of svgs) 0 = Some svg_ns /\ text (st_of svgs) 1 = Some t_x /\ ~ In 58%N t_x /\ refs (st_of svgs) 1 = 1%N /\
  text (st_of svgs) 2 = Some ([112%N] ++ 58%N :: [103%N]).
Proof.
  split; [apply (played_sreach svgs); vm_compute; reflexivity|]. split; [unfold brief, two32; lia|].
  split; [vm_compute; auto|]. split; [vm_compute; auto|]. split; [vm_compute; auto|]. split; [vm_compute; reflexivity|]. split; [vm_compute; reflexivity|].
  split; [intros [Z|[]]; discriminate|]. split; vm_compute; reflexivity.
Qed.

(** An INPUT whose attribute is set twice. *)
Definition attred : list sop := [SNew t_input; SElement 0; SNew t_value; SNew t_x; SNew t_y; SAttr 0 2 3].
Lemma attr_case : exists k s own lost e n w u s1 w' s2, sreach k s own lost /\ brief k /\ slegal own s (SAttr e n w) /\ named s n n_value /\
  sexec (SAttr e n w) s = Ok u s1 /\ sexec (SDefault e) s1 = Ok (UStr (Some w')) s2 /\ text s1 w' <> text s1 w.
Proof.
  destruct (sval_two (SAttr 0 2 4) (SDefault 0) (st_of attred) (fun s => Some (text s 3, text s 4)) UDone (UStr (Some 3)) (Some (Some t_x, Some t_y)))
    as (s1 & s2 & E1 & E2 & T); [vm_compute; reflexivity|].
  exists 6, (st_of attred), (own_of attred), (lost_of attred), 0, 2, 4, UDone, s1, 3, s2.
  split; [apply (played_sreach attred); vm_compute; reflexivity|]. split; [unfold brief, two32; lia|].
  split; [apply legalb_ok; vm_compute; reflexivity|]. split; [exists t_value; split; vm_compute; reflexivity|].
  split; [exact E1|]. split; [exact E2|]. injection T as -> ->. discriminate.
Qed.

(** The cases for the values. *)
Definition made : list sop := [SNew t_input; SNew t_area; SNew t_x; SNew t_y; SNew t_value].
Lemma made_case : sreach 5 (st_of made) (own_of made) (lost_of made) /\ slegal (own_of made) (st_of made) (SElement 0) /\
  slegal (own_of made) (st_of made) (SElement 1) /\ exists s1, sexec (SElement 0) (st_of made) = Ok (UEl 0) s1.
Proof.
  split; [apply (played_sreach made); vm_compute; reflexivity|]. split; [apply legalb_ok; vm_compute; reflexivity|].
  split; [apply legalb_ok; vm_compute; reflexivity|]. apply sval_ok. vm_compute. reflexivity.
Qed.

(** More calls, played. *)
Fixpoint more_play (os : list sop) (s : cst) (own : list nat) : option (cst * list nat) :=
  match os with
  | [] => Some (s, own)
  | o :: r =>
      if legalb own s o && calmb s o then
        match sexec o s with Ok u s' => more_play r s' (own_after own o u) | Exc _ s' => more_play r s' own | Bad _ => None end
      else None
  end.
Lemma more_ok os s own s' own' : more_play os s own = Some (s', own') -> smore s own os s' own'.
Proof.
  revert s own. induction os as [|o os IH]; intros s own H; cbn [more_play] in H.
  - injection H as <- <-. constructor.
  - destruct (legalb own s o) eqn:L; [|discriminate]. destruct (calmb s o) eqn:C; [|discriminate]. cbn [andb] in H.
    apply legalb_ok in L. apply calmb_ok in C. destruct (sexec o s) as [u s1|x s1|b] eqn:E; [| |discriminate].
    + exact (sm_ok _ _ _ _ _ _ _ _ L C E (IH _ _ H)).
    + exact (sm_exc _ _ _ _ _ _ _ _ L C E (IH _ _ H)).
Qed.
Definition mored (os : list sop) (s : cst) (own : list nat) : bool := match more_play os s own with Some _ => true | None => false end.
Lemma more_some os s own : mored os s own = true -> exists s' own', smore s own os s' own'.
Proof. unfold mored. destruct (more_play os s own) as [[s' own']|] eqn:E; [|discriminate]. intros _. eauto using more_ok. Qed.

(** A value is set and other things happen. *)
Definition one_input : list sop := made ++ [SElement 0].
Definition after : list sop := [SSetDefault 0 (Some 3); SSetTitle (Some 2); SValue 0; SElement 1; SSetValue 1 (Some 3); SAttr 0 4 3; SCopy 0].
Lemma then_more o s own os u : match sexec o s with Ok u' s1 => mored os s1 (own_after own o u') | _ => false end = true ->
  (exists s1, sexec o s = Ok u s1) -> exists s1 s2 own2, sexec o s = Ok u s1 /\ smore s1 (own_after own o u) os s2 own2.
Proof.
  intros H (s1 & E). rewrite E in H. apply more_some in H as (s2 & own2 & M). exists s1, s2, own2. auto.
Qed.
Lemma value_case : sreach 6 (st_of one_input) (own_of one_input) (lost_of one_input) /\
  slegal (own_of one_input) (st_of one_input) (SSetValue 0 (Some 2)) /\ forallb (keeps_value 0) after = true /\ brief (7 + length after) /\
  exists s1 s2 own2, sexec (SSetValue 0 (Some 2)) (st_of one_input) = Ok UDone s1 /\ smore s1 (own_of one_input) after s2 own2.
Proof.
  split; [apply (played_sreach one_input); vm_compute; reflexivity|]. split; [apply legalb_ok; vm_compute; reflexivity|]. split; [reflexivity|].
  split; [unfold brief, two32; cbn; lia|].
  apply (then_more (SSetValue 0 (Some 2)) _ (own_of one_input)); [vm_compute; reflexivity|]. apply sval_ok. vm_compute. reflexivity.
Qed.
Lemma chain own o1 o2 o3 s u1 u2 u3 :
  match sexec o1 s with
  | Ok a s1 => if legalb own s1 o2 then match sexec o2 s1 with
      | Ok b s3 => if legalb own s3 o3 then match sexec o3 s3 with Ok c _ => Some (a, b, c) | _ => None end else None
      | _ => None end else None
  | _ => None
  end = Some (u1, u2, u3) ->
  exists s1 s3 s4, sexec o1 s = Ok u1 s1 /\ slegal own s1 o2 /\ sexec o2 s1 = Ok u2 s3 /\ slegal own s3 o3 /\ sexec o3 s3 = Ok u3 s4.
Proof.
  destruct (sexec o1 s) as [a s1|e s1|b]; try discriminate. destruct (legalb own s1 o2) eqn:L2; [|discriminate].
  destruct (sexec o2 s1) as [b s3|e s3|b] eqn:E2; try discriminate. destruct (legalb own s3 o3) eqn:L3; [|discriminate].
  destruct (sexec o3 s3) as [c s4|e s4|c] eqn:E3; try discriminate. intro H. injection H as -> -> ->.
  apply legalb_ok in L2. apply legalb_ok in L3. exists s1, s3, s4. auto.
Qed.
Lemma area_case : exists s1 s3 s4, sexec (SElement 1) (st_of made) = Ok (UEl 0) s1 /\ slegal (own_of made) s1 (SSetText 0 (Some 2)) /\
  sexec (SSetText 0 (Some 2)) s1 = Ok UDone s3 /\ slegal (own_of made) s3 (SValue 0) /\ sexec (SValue 0) s3 = Ok (UStr (Some 2)) s4.
Proof. apply chain. vm_compute. reflexivity. Qed.
Lemma area_set_case : exists s1 s3 s4, sexec (SElement 1) (st_of made) = Ok (UEl 0) s1 /\ slegal (own_of made) s1 (SSetText 0 (Some 2)) /\
  sexec (SSetText 0 (Some 2)) s1 = Ok UDone s3 /\ slegal (own_of made) s3 (SSetValue 0 (Some 3)) /\ sexec (SSetValue 0 (Some 3)) s3 = Ok UDone s4.
Proof. apply chain. vm_compute. reflexivity. Qed.
Lemma first_case : exists s1 s3 s4, sexec (SElement 0) (st_of made) = Ok (UEl 0) s1 /\ slegal (own_of made) s1 (SAttr 0 4 2) /\
  sexec (SAttr 0 4 2) s1 = Ok UDone s3 /\ slegal (own_of made) s3 (SAttr 0 4 3) /\ sexec (SAttr 0 4 3) s3 = Ok UDone s4.
Proof. apply chain. vm_compute. reflexivity. Qed.
Lemma copy_case : sreach 11 (st_of busy) (own_of busy) (lost_of busy) /\ there (st_of busy) 0 /\ input (st_of busy) 0 /\
  exists s1, sexec (SCopy 0) (st_of busy) = Ok (UEl 3) s1.
Proof.
  split; [apply (played_sreach busy); vm_compute; reflexivity|]. split; [apply kind_ok; vm_compute; reflexivity|].
  split; [apply kind_ok; vm_compute; reflexivity|]. apply sval_ok. vm_compute. reflexivity.
Qed.
