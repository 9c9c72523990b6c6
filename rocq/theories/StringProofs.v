(** Proofs about the string operations. *)
From Coq Require Import List Arith NArith ZArith Bool Lia ZifyBool ZifyN ZifyNat.
From Verif Require Import Base Utf8Model StringModel StringSpec.
Import ListNotations.
Local Open Scope N_scope.

Ltac Zify.zify_post_hook ::= Z.div_mod_to_equations.

(** ** One character *)

Lemma utf8_shape c r : character c ->
  exists b w v least,
    utf8 c = b :: w /\ contb b = false /\ Forall (fun x => contb x = true) w /\
    lead b = Some (v, S (length w), least) /\ least <= c /\ forbidden c = false /\
    continuations (length w) (w ++ r) v = UOk c 0.
Proof.
  intros [H1 [H2 [H3 H4]]].
  assert (F : forbidden c = false) by (unfold forbidden; lia).
  unfold utf8.
  destruct (N.ltb_spec c 128).
  { exists c, [], c, 0. repeat split; auto.
    - unfold contb; lia.
    - unfold lead. destruct (N.ltb_spec c 128); [reflexivity|lia].
    - lia. }
  destruct (N.ltb_spec c 2048).
  { exists (192 + c / 64), [128 + c mod 64], ((192 + c / 64) mod 32), 128. repeat split; auto.
    - unfold contb; lia.
    - repeat constructor. unfold contb; lia.
    - unfold lead.
      destruct (N.ltb_spec (192 + c / 64) 128); [lia|].
      destruct (N.ltb_spec (192 + c / 64) 192); [lia|].
      destruct (N.ltb_spec (192 + c / 64) 224); [reflexivity|lia].
    - cbn [length app continuations].
      replace (contb (128 + c mod 64)) with true by (unfold contb; lia).
      f_equal; lia. }
  destruct (N.ltb_spec c 65536).
  { exists (224 + c / 4096), [128 + c / 64 mod 64; 128 + c mod 64], ((224 + c / 4096) mod 16), 2048.
    repeat split; auto.
    - unfold contb; lia.
    - repeat constructor; unfold contb; lia.
    - unfold lead.
      destruct (N.ltb_spec (224 + c / 4096) 128); [lia|].
      destruct (N.ltb_spec (224 + c / 4096) 192); [lia|].
      destruct (N.ltb_spec (224 + c / 4096) 224); [lia|].
      destruct (N.ltb_spec (224 + c / 4096) 240); [reflexivity|lia].
    - cbn [length app continuations].
      replace (contb (128 + c mod 64)) with true by (unfold contb; lia).
      replace (contb (128 + c / 64 mod 64)) with true by (unfold contb; lia).
      f_equal; lia. }
  { exists (240 + c / 262144), [128 + c / 4096 mod 64; 128 + c / 64 mod 64; 128 + c mod 64],
      ((240 + c / 262144) mod 8), 65536.
    repeat split; auto.
    - unfold contb; lia.
    - repeat constructor; unfold contb; lia.
    - unfold lead.
      destruct (N.ltb_spec (240 + c / 262144) 128); [lia|].
      destruct (N.ltb_spec (240 + c / 262144) 192); [lia|].
      destruct (N.ltb_spec (240 + c / 262144) 224); [lia|].
      destruct (N.ltb_spec (240 + c / 262144) 240); [lia|].
      destruct (N.ltb_spec (240 + c / 262144) 248); [reflexivity|lia].
    - cbn [length app continuations].
      replace (contb (128 + c mod 64)) with true by (unfold contb; lia).
      replace (contb (128 + c / 64 mod 64)) with true by (unfold contb; lia).
      replace (contb (128 + c / 4096 mod 64)) with true by (unfold contb; lia).
      f_equal; lia. }
Qed.

Lemma utf8_nonempty c : (0 < length (utf8 c))%nat.
Proof. unfold utf8. repeat (destruct (_ <? _)); cbn; lia. Qed.

Lemma decode_one c r len : character c -> (length (utf8 c) <= len)%nat ->
  utf8_to_ucs4 (utf8 c ++ r) len = UOk c (length (utf8 c)).
Proof.
  intros Hc Hl. destruct (utf8_shape c r Hc) as (b & w & v & least & E & _ & _ & L & Le & F & K).
  rewrite E in *. cbn [length app] in *. unfold utf8_to_ucs4.
  destruct (Nat.eqb_spec len 0); [lia|]. rewrite L.
  destruct (Nat.ltb_spec len (S (length w))); [lia|].
  replace (S (length w) - 1)%nat with (length w) by lia. rewrite K.
  rewrite F. replace (c <? least) with false by lia. reflexivity.
Qed.

Lemma decode_short c r len : character c -> (len < length (utf8 c))%nat ->
  utf8_to_ucs4 (utf8 c ++ r) len = UNeed.
Proof.
  intros Hc Hl. destruct (utf8_shape c r Hc) as (b & w & v & least & E & _ & _ & L & Le & F & K).
  rewrite E in *. cbn [length app] in *. unfold utf8_to_ucs4.
  destruct (Nat.eqb_spec len 0); [reflexivity|]. rewrite L.
  destruct (Nat.ltb_spec len (S (length w))); [reflexivity|lia].
Qed.

Lemma lead_one c b r : character c -> utf8 c = b :: r ->
  exists v least, lead b = Some (v, length (utf8 c), least).
Proof.
  intros Hc E. destruct (utf8_shape c [] Hc) as (b' & w & v & least & E' & _ & _ & L & _).
  rewrite E' in E. injection E as -> ->. exists v, least. rewrite E'. exact L.
Qed.

Lemma encoded_app a b : encoded (a ++ b) = encoded a ++ encoded b.
Proof. apply flat_map_app. Qed.

Lemma encoded_cons c b : encoded (c :: b) = utf8 c ++ encoded b.
Proof. reflexivity. Qed.

Lemma encoded_length cs : (length cs <= length (encoded cs))%nat.
Proof.
  induction cs as [|c cs IH]; [cbn; lia|]. rewrite encoded_cons, app_length.
  pose proof (utf8_nonempty c). cbn [length]. lia.
Qed.

Lemma skipn_app_exact {A} (a b : list A) : skipn (length a) (a ++ b) = b.
Proof. rewrite skipn_app, skipn_all, Nat.sub_diag. reflexivity. Qed.

Lemma firstn_app_exact {A} (a b : list A) : firstn (length a) (a ++ b) = a.
Proof. rewrite firstn_app, firstn_all, Nat.sub_diag. cbn. apply app_nil_r. Qed.

Lemma utf8_inv c : exists b w, utf8 c = b :: w.
Proof. pose proof (utf8_nonempty c). destruct (utf8 c) as [|b w]; [cbn in *; lia|eauto]. Qed.

(** ** length *)

Lemma length_ok cs fuel : Forall character cs -> (length cs <= fuel)%nat ->
  utf8_length fuel (encoded cs) = Some (Some (N.of_nat (length cs))).
Proof.
  intros H. revert fuel. induction H as [|c cs Hc H IH]; intros fuel Hf.
  - destruct fuel; reflexivity.
  - rewrite encoded_cons. destruct (utf8_inv c) as (b & w & E).
    destruct fuel as [|f]; [cbn in Hf; lia|].
    destruct (lead_one c b w Hc E) as (v & least & L).
    assert (Sk : skipn (length (utf8 c)) (utf8 c ++ encoded cs) = encoded cs)
      by apply skipn_app_exact.
    rewrite E at 1. cbn [app utf8_length]. rewrite L.
    change (b :: w ++ encoded cs) with ((b :: w) ++ encoded cs). rewrite <- E, Sk.
    rewrite IH by (cbn in Hf; lia). cbn [length]. do 2 f_equal. lia.
Qed.

Section WithState.
Context {St : Type}.
Implicit Types st : St.

Lemma text_count cs : text cs -> N.of_nat (length cs) < two32.
Proof. intros [_ H]. pose proof (encoded_length cs). lia. Qed.

Lemma u32_small n : n < two32 -> u32 n = n.
Proof. unfold u32, two32. intros. apply N.mod_small. assumption. Qed.

Lemma string_length_ok cs st : text cs ->
  string_length (encoded cs) st = Ok (N.of_nat (length cs)) st.
Proof.
  intros T. unfold string_length.
  rewrite length_ok; [|apply T|apply encoded_length].
  rewrite u32_small by (apply text_count; exact T). reflexivity.
Qed.

(** ** index *)

Lemma index_loop_ok cs chr st : Forall character cs -> forall fuel i,
  (length cs <= fuel)%nat -> i + N.of_nat (length cs) < two32 ->
  (forall k, first_at cs chr k -> index_loop fuel (encoded cs) chr i st = Ok (i + N.of_nat k) st) /\
  (~ In chr cs -> index_loop fuel (encoded cs) chr i st = Ok NOPOS st).
Proof.
  intros H. induction H as [|c cs Hc H IH]; intros fuel i Hf Hi.
  - split.
    + intros k (a & b & E & _). destruct a; discriminate.
    + intros _. destruct fuel; reflexivity.
  - destruct fuel as [|f]; [cbn in Hf; lia|]. cbn [length] in Hf, Hi.
    assert (St1 : index_loop (S f) (encoded (c :: cs)) chr i st =
      if c =? chr then Ok i st else index_loop f (encoded cs) chr (u32 (i + 1)) st).
    { rewrite encoded_cons. cbn [index_loop].
      rewrite decode_one by (auto; rewrite app_length; lia).
      rewrite skipn_app_exact.
      destruct (utf8_inv c) as (b & w & E). rewrite E. cbn [app].
      destruct (c =? chr); reflexivity. }
    rewrite St1, u32_small by lia. destruct (IH f (i + 1)) as [I1 I2]; [lia|lia|].
    destruct (N.eqb_spec c chr) as [->|Ne].
    + split.
      * intros k (a & b & E & <- & Na). destruct a as [|x a]; [cbn; f_equal; lia|].
        injection E as <- _. destruct Na. left. reflexivity.
      * intros Na. destruct Na. left. reflexivity.
    + split.
      * intros k (a & b & E & <- & Na). destruct a as [|x a].
        { injection E as -> _. congruence. }
        injection E as <- ->. rewrite (I1 (length a)).
        { f_equal. cbn [length]. lia. }
        exists a, b. repeat split. intros In1. apply Na. right. exact In1.
      * intros Na. apply I2. intros In1. apply Na. right. exact In1.
Qed.

Lemma string_index_found cs chr k st : text cs -> first_at cs chr k ->
  string_index (encoded cs) chr st = Ok (N.of_nat k) st.
Proof.
  intros T F. unfold string_index.
  destruct (index_loop_ok cs chr st (proj1 T) (length (encoded cs)) 0) as [H _].
  - apply encoded_length.
  - pose proof (text_count cs T). lia.
  - rewrite (H k F). reflexivity.
Qed.

Lemma string_index_absent cs chr st : text cs -> ~ In chr cs ->
  string_index (encoded cs) chr st = Ok NOPOS st.
Proof.
  intros T F. unfold string_index.
  destruct (index_loop_ok cs chr st (proj1 T) (length (encoded cs)) 0) as [_ H].
  - apply encoded_length.
  - pose proof (text_count cs T). lia.
  - exact (H F).
Qed.

(** ** at *)

Lemma at_loop_ok cs st : Forall character cs -> forall fuel i k,
  (length cs <= fuel)%nat -> i + N.of_nat (length cs) < two32 ->
  i <= k -> k + 1 < two32 ->
  at_loop fuel (encoded cs) i k st =
    match nth_error cs (N.to_nat (k - i)) with
    | Some c => Ok (Some c) st
    | None => Exc DOMSTRING_SIZE_ERR st
    end.
Proof.
  intros H. induction H as [|c cs Hc H IH]; intros fuel i k Hf Hi Hik Hk.
  - replace (nth_error [] (N.to_nat (k - i))) with (@None N) by (destruct (N.to_nat (k-i)); reflexivity).
    assert (E : i =? u32 (k + 1) = false) by (rewrite u32_small by exact Hk; lia).
    change (encoded []) with (@nil N).
    destruct fuel; cbn [at_loop]; rewrite E; reflexivity.
  - destruct fuel as [|f]; [cbn in Hf; lia|]. cbn [length] in Hf, Hi.
    rewrite encoded_cons. destruct (utf8_inv c) as (b & w & E).
    destruct (lead_one c b w Hc E) as (v & least & L).
    assert (D : utf8_to_ucs4 (utf8 c ++ encoded cs) (length (utf8 c ++ encoded cs)) =
      UOk c (length (utf8 c))) by (apply decode_one; [auto|rewrite app_length; lia]).
    assert (Sk : skipn (length (utf8 c)) (utf8 c ++ encoded cs) = encoded cs)
      by apply skipn_app_exact.
    assert (Sh : (length (utf8 c ++ encoded cs) <? length (utf8 c))%nat = false)
      by (rewrite app_length; lia).
    rewrite E in D, Sk, Sh |- * . cbn [app] in D, Sk, Sh |- * . cbn [at_loop].
    unfold char_byte_length. rewrite L, E, D, Sk, Sh, !u32_small by lia.
    destruct (N.eqb_spec (i + 1) (k + 1)) as [Ek|Nk].
    + replace (N.to_nat (k - i)) with 0%nat by lia. reflexivity.
    + rewrite IH by lia. replace (N.to_nat (k - i)) with (S (N.to_nat (k - (i + 1)))) by lia.
      reflexivity.
Qed.

Lemma string_at_ok cs k st : text cs -> k + 1 < two32 ->
  string_at (encoded cs) k st =
    match nth_error cs (N.to_nat k) with
    | Some c => Ok (Some c) st
    | None => Exc DOMSTRING_SIZE_ERR st
    end.
Proof.
  intros T Hk. unfold string_at.
  rewrite at_loop_ok; [rewrite N.sub_0_r; reflexivity|apply T|apply encoded_length| |lia|exact Hk].
  pose proof (text_count cs T). lia.
Qed.

(** ** Moving by characters *)

Lemma run_of_cont_end w r : Forall (fun x => contb x = true) w ->
  (forall b, hd_error r = Some b -> contb b = false) ->
  run_of_cont (w ++ r) = length w.
Proof.
  induction 1 as [|x w Hx Hw IH]; intros Hr.
  - cbn [app length]. destruct r as [|b r]; [reflexivity|]. cbn. rewrite Hr; reflexivity.
  - cbn. rewrite Hx, IH by exact Hr. reflexivity.
Qed.

Lemma encoded_head cs b : Forall character cs -> hd_error (encoded cs) = Some b -> contb b = false.
Proof.
  intros H E. destruct H as [|c cs Hc H]; [discriminate|].
  rewrite encoded_cons in E.
  destruct (utf8_shape c [] Hc) as (b' & w & v & least & E' & C & _).
  rewrite E' in E. injection E as <-. exact C.
Qed.

Lemma next_ok a c cs : character c -> Forall character cs ->
  utf8_next (encoded (a ++ c :: cs)) (length (encoded a)) =
  Some (length (encoded (a ++ [c]))).
Proof.
  intros Hc H. unfold utf8_next. rewrite !encoded_app, !app_length, !encoded_cons.
  change (encoded []) with (@nil N). rewrite app_nil_r, app_length.
  pose proof (utf8_nonempty c).
  destruct (Nat.leb_spec (length (encoded a) + (length (utf8 c) + length (encoded cs)))
              (length (encoded a))); [lia|].
  f_equal.
  destruct (utf8_shape c [] Hc) as (b & w & v & least & E & C & W & _).
  replace (skipn (S (length (encoded a))) (encoded a ++ utf8 c ++ encoded cs))
    with (w ++ encoded cs).
  - rewrite run_of_cont_end; [rewrite E; cbn [length]; lia|exact W|].
    intros x Hx. exact (encoded_head cs x H Hx).
  - rewrite E. change (S (length (encoded a))) with (1 + length (encoded a))%nat.
    replace (1 + length (encoded a))%nat with (length (encoded a ++ [b]))
      by (rewrite app_length; cbn; lia).
    change ((b :: w) ++ encoded cs) with ([b] ++ (w ++ encoded cs)).
    rewrite app_assoc. symmetry. apply skipn_app_exact.
Qed.

Lemma next_end s : utf8_next s (length s) = None.
Proof. unfold utf8_next. rewrite Nat.leb_refl. reflexivity. Qed.

Lemma advance_ok cs st : Forall character cs -> forall i a fuel,
  (length cs < fuel)%nat ->
  advance fuel (encoded (a ++ cs)) (length (encoded a)) i st =
    if N.of_nat (length cs) <? i then Exc NO_MEM_ERR st
    else Ok (length (encoded (a ++ firstn (N.to_nat i) cs))) st.
Proof.
  induction 1 as [|c cs Hc H IH]; intros i a fuel Hf.
  - destruct fuel as [|f]; [lia|]. cbn [advance].
    destruct (N.eqb_spec i 0) as [->|Ni].
    + cbn. rewrite app_nil_r. reflexivity.
    + rewrite app_nil_r, next_end. cbn [length].
      destruct (N.ltb_spec (N.of_nat 0) i); [reflexivity|lia].
  - destruct fuel as [|f]; [lia|]. cbn [advance].
    destruct (N.eqb_spec i 0) as [->|Ni].
    + cbn [N.to_nat firstn]. rewrite app_nil_r. cbn [length].
      destruct (N.ltb_spec (N.of_nat (S (length cs))) 0); [lia|reflexivity].
    + rewrite next_ok by assumption.
      replace (a ++ c :: cs) with ((a ++ [c]) ++ cs) by (rewrite <- app_assoc; reflexivity).
      rewrite IH by (cbn in Hf; lia). cbn [length].
      replace (N.to_nat i) with (S (N.to_nat (i - 1))) by lia. cbn [firstn].
      rewrite <- app_assoc. cbn [app].
      destruct (N.ltb_spec (N.of_nat (length cs)) (i - 1)), (N.ltb_spec (N.of_nat (S (length cs))) i);
        try reflexivity; lia.
Qed.

Lemma advance_start cs i st fuel : Forall character cs -> (length cs < fuel)%nat ->
  advance fuel (encoded cs) 0 i st =
    if N.of_nat (length cs) <? i then Exc NO_MEM_ERR st
    else Ok (length (encoded (firstn (N.to_nat i) cs))) st.
Proof. intros H Hf. exact (advance_ok cs st H i [] fuel Hf). Qed.

Lemma firstn_slice {A} (i j : nat) (cs : list A) : (i <= j)%nat ->
  firstn j cs = firstn i cs ++ slice i j cs.
Proof.
  intros H. unfold slice. rewrite <- (firstn_skipn i (firstn j cs)), firstn_firstn, skipn_firstn_comm.
  replace (Nat.min i j) with i by lia. reflexivity.
Qed.

Lemma advance_from cs i j st fuel : Forall character cs -> (length cs < fuel)%nat ->
  (i <= length cs)%nat ->
  advance fuel (encoded cs) (length (encoded (firstn i cs))) j st =
    if N.of_nat (length cs - i) <? j then Exc NO_MEM_ERR st
    else Ok (length (encoded (firstn (i + N.to_nat j) cs))) st.
Proof.
  intros H Hf Hi.
  assert (H2 : Forall character (skipn i cs)).
  { rewrite <- (firstn_skipn i cs) in H. apply Forall_app in H. apply H. }
  pose proof (advance_ok (skipn i cs) st H2 j (firstn i cs) fuel) as A.
  rewrite firstn_skipn, skipn_length in A. rewrite A by lia.
  destruct (_ <? _); [reflexivity|]. do 3 f_equal.
  rewrite (firstn_slice i (i + N.to_nat j) cs) by lia. unfold slice.
  replace (i + N.to_nat j - i)%nat with (N.to_nat j) by lia. reflexivity.
Qed.

Lemma sub32_small a b : b <= a -> a < two32 -> sub32 a b = a - b.
Proof.
  unfold sub32, u32, two32. intros. rewrite (N.mod_small b) by lia. lia.
Qed.

Lemma sub32_wrap a b : a < b -> b < two32 -> sub32 a b = a + two32 - b.
Proof.
  unfold sub32, u32, two32. intros. rewrite (N.mod_small b) by lia. lia.
Qed.

Lemma skipn_skipn2 {A} (x y : nat) (l : list A) : skipn x (skipn y l) = skipn (x + y) l.
Proof.
  revert x l. induction y as [|y IH]; intros x l; [rewrite Nat.add_0_r; reflexivity|].
  rewrite Nat.add_succ_r. destruct l as [|a l]; [rewrite !skipn_nil; reflexivity|].
  cbn [skipn]. apply IH.
Qed.

Lemma split3 {A} (i j : nat) (cs : list A) : (i <= j)%nat ->
  cs = firstn i cs ++ slice i j cs ++ skipn j cs.
Proof.
  intros H. rewrite app_assoc, <- firstn_slice by exact H. symmetry. apply firstn_skipn.
Qed.

(** The two byte offsets computed by substr and replace. *)
Definition range_ok (cs : list N) (i1 i2 : N) : Prop :=
  i1 <= i2 /\ i2 <= N.of_nat (length cs).

Lemma two_advances cs i1 i2 st : text cs -> i1 < two32 -> i2 < two32 ->
  (forall {B} (k : nat -> nat -> M St B),
   (range_ok cs i1 i2 ->
    (b1 <- advance (length (encoded cs) + 1) (encoded cs) 0 i1 ;;
     b2 <- advance (length (encoded cs) + 1) (encoded cs) b1 (sub32 i2 i1) ;;
     k b1 b2)%dom st =
    k (length (encoded (firstn (N.to_nat i1) cs))) (length (encoded (firstn (N.to_nat i2) cs))) st) /\
   (~ range_ok cs i1 i2 ->
    (b1 <- advance (length (encoded cs) + 1) (encoded cs) 0 i1 ;;
     b2 <- advance (length (encoded cs) + 1) (encoded cs) b1 (sub32 i2 i1) ;;
     k b1 b2)%dom st = Exc NO_MEM_ERR st)).
Proof.
  intros T H1 H2 B k.
  pose proof (encoded_length cs) as EL. pose proof (text_count cs T) as TC.
  unfold bind. rewrite advance_start by (try apply T; lia).
  destruct (N.ltb_spec (N.of_nat (length cs)) i1) as [Big|Small].
  { split; [intros [R1 R2]; lia|reflexivity]. }
  rewrite advance_from by (try apply T; lia).
  split.
  - intros [R1 R2]. rewrite sub32_small by lia.
    destruct (N.ltb_spec (N.of_nat (length cs - N.to_nat i1)) (i2 - i1)); [lia|].
    replace (N.to_nat i1 + N.to_nat (i2 - i1))%nat with (N.to_nat i2) by lia. reflexivity.
  - intros R. unfold range_ok in R. destruct (N.le_gt_cases i1 i2) as [Le|Gt].
    + rewrite sub32_small by lia.
      destruct (N.ltb_spec (N.of_nat (length cs - N.to_nat i1)) (i2 - i1)); [reflexivity|lia].
    + rewrite sub32_wrap by lia.
      destruct (N.ltb_spec (N.of_nat (length cs - N.to_nat i1)) (i2 + two32 - i1)); [reflexivity|lia].
Qed.

Lemma string_substr_ok cs i1 i2 st : text cs -> i1 < two32 -> i2 < two32 ->
  string_substr (encoded cs) i1 i2 st =
    if (i1 <=? i2) && (i2 <=? N.of_nat (length cs))
    then Ok (encoded (slice (N.to_nat i1) (N.to_nat i2) cs)) st
    else Exc NO_MEM_ERR st.
Proof.
  intros T H1 H2. unfold string_substr.
  destruct (two_advances cs i1 i2 st T H1 H2 (B := bytes)
    (fun b1 b2 => ret (firstn (b2 - b1) (skipn b1 (encoded cs))))) as [A1 A2].
  destruct (N.leb_spec i1 i2), (N.leb_spec i2 (N.of_nat (length cs))); cbn [andb];
    try (apply A2; unfold range_ok; lia).
  etransitivity; [apply A1; split; assumption|]. unfold ret; cbv beta; apply (f_equal (fun x => Ok x st)).
  rewrite (firstn_slice (N.to_nat i1) (N.to_nat i2) cs) by lia.
  rewrite encoded_app, app_length.
  match goal with |- firstn (?x + ?y - ?x) _ = _ => replace (x + y - x)%nat with y by lia end.
  rewrite (split3 (N.to_nat i1) (N.to_nat i2) cs) at 3 by lia.
  rewrite !encoded_app, skipn_app_exact, firstn_app_exact. reflexivity.
Qed.

Lemma cut_front i cs : firstn (length (encoded (firstn i cs))) (encoded cs) = encoded (firstn i cs).
Proof.
  rewrite <- (firstn_skipn i cs) at 2. rewrite encoded_app. apply firstn_app_exact.
Qed.

Lemma cut_back i cs : skipn (length (encoded (firstn i cs))) (encoded cs) = encoded (skipn i cs).
Proof.
  rewrite <- (firstn_skipn i cs) at 2. rewrite encoded_app. apply skipn_app_exact.
Qed.

Lemma string_replace_ok cs src i1 i2 st : text cs -> i1 < two32 -> i2 < two32 ->
  string_replace (encoded cs) src i1 i2 st =
    if (i1 <=? i2) && (i2 <=? N.of_nat (length cs))
    then Ok (encoded (firstn (N.to_nat i1) cs) ++ src ++ encoded (skipn (N.to_nat i2) cs)) st
    else Exc NO_MEM_ERR st.
Proof.
  intros T H1 H2. unfold string_replace.
  destruct (two_advances cs i1 i2 st T H1 H2 (B := bytes)
    (fun b1 b2 => ret (firstn b1 (encoded cs) ++ src ++ skipn b2 (encoded cs)))) as [A1 A2].
  destruct (N.leb_spec i1 i2), (N.leb_spec i2 (N.of_nat (length cs))); cbn [andb];
    try (apply A2; unfold range_ok; lia).
  etransitivity; [apply A1; split; assumption|]. unfold ret; cbv beta; apply (f_equal (fun x => Ok x st)).
  rewrite cut_front, cut_back. reflexivity.
Qed.

Lemma string_insert_ok cs src i st : text cs -> i < two32 ->
  string_insert (encoded cs) src i st =
    if i <=? N.of_nat (length cs)
    then Ok (encoded (firstn (N.to_nat i) cs) ++ src ++ encoded (skipn (N.to_nat i) cs)) st
    else Exc INDEX_SIZE_ERR st.
Proof.
  intros T H1. unfold string_insert. unfold bind at 1. rewrite string_length_ok by exact T.
  destruct (N.ltb_spec (N.of_nat (length cs)) i), (N.leb_spec i (N.of_nat (length cs)));
    try lia; [reflexivity|].
  unfold bind. destruct (N.eqb_spec i (N.of_nat (length cs))) as [->|Ni].
  - unfold ret. rewrite Nat2N.id, firstn_all, !firstn_all, !skipn_all. reflexivity.
  - pose proof (encoded_length cs). rewrite advance_start by (try apply T; lia).
    destruct (N.ltb_spec (N.of_nat (length cs)) i); [lia|]. unfold ret; cbv beta; apply (f_equal (fun x => Ok x st)).
    rewrite cut_front, cut_back. reflexivity.
Qed.

(** ** rindex *)

Lemma prev_run a b w r : contb b = false -> Forall (fun x => contb x = true) w ->
  utf8_prev (a ++ b :: w ++ r) (length a + S (length w)) = length a.
Proof.
  intros Hb. revert r. induction w as [|x w IH] using rev_ind; intros r Hw.
  - cbn [length app]. replace (length a + 1)%nat with (S (length a)) by lia. cbn [utf8_prev].
    rewrite app_nth2 by lia. rewrite Nat.sub_diag. cbn [nth]. rewrite Hb. reflexivity.
  - apply Forall_app in Hw. destruct Hw as [Hw Hx]. inversion Hx as [|? ? Hx1 _]; subst.
    rewrite app_length. cbn [length].
    replace (length a + S (length w + 1))%nat with (S (length a + S (length w))) by lia.
    cbn [utf8_prev]. rewrite <- app_assoc. cbn [app].
    assert (Nx : nth (length a + S (length w)) (a ++ b :: w ++ x :: r) 0 = x).
    { replace (a ++ b :: w ++ x :: r) with ((a ++ b :: w) ++ x :: r)
        by (rewrite <- app_assoc; reflexivity).
      rewrite app_nth2 by (rewrite app_length; cbn; lia).
      rewrite app_length. cbn [length]. rewrite Nat.sub_diag. reflexivity. }
    rewrite Nx, Hx1. exact (IH (x :: r) Hw).
Qed.

Lemma prev_ok a c r : character c ->
  utf8_prev (encoded a ++ utf8 c ++ r) (length (encoded a) + length (utf8 c)) = length (encoded a).
Proof.
  intros Hc. destruct (utf8_shape c [] Hc) as (b & w & v & least & E & C & W & _).
  rewrite E. exact (prev_run (encoded a) b w r C W).
Qed.

Lemma utf8_at_most c : (length (utf8 c) <= 4)%nat.
Proof. unfold utf8. repeat (destruct (_ <? _)); cbn; lia. Qed.

(** The loop, when the characters before the wanted one take four bytes. *)
Lemma rindex_loop_ok chr a st : character chr -> Forall character a ->
  (4 <= length (encoded a))%nat ->
  forall b r clen fuel i,
  Forall character b -> ~ In chr b -> (clen <= 4)%nat ->
  (length b < fuel)%nat -> N.of_nat (length b) < i -> i < two32 ->
  rindex_loop fuel (encoded (a ++ chr :: b) ++ r) (length (encoded (a ++ chr :: b))) clen chr i st
  = Ok (i - N.of_nat (length b)) st.
Proof.
  intros Hc Ha Four b. induction b as [|x b IH] using rev_ind; intros r clen fuel i Hb Nb Hcl Hf Hi Hi2.
  - destruct fuel as [|f]; [cbn in Hf; lia|].
    rewrite encoded_app, encoded_cons. change (encoded []) with (@nil N).
    rewrite app_nil_r, app_length, <- app_assoc. cbn [rindex_loop].
    pose proof (utf8_nonempty chr).
    rewrite prev_ok by exact Hc. rewrite skipn_app_exact, decode_one by (auto; lia).
    destruct (length (encoded a) + length (utf8 chr))%nat eqn:Z; [lia|].
    rewrite N.eqb_refl. cbn [length]. unfold ret. f_equal. lia.
  - destruct fuel as [|f]; [cbn in Hf; lia|].
    apply Forall_app in Hb. destruct Hb as [Hb Hx]. inversion Hx as [|? ? Hx1 _]; subst.
    set (front := a ++ chr :: b).
    replace (a ++ chr :: b ++ [x]) with (front ++ [x]) by (unfold front; rewrite <- app_assoc; reflexivity).
    rewrite encoded_app, encoded_cons. change (encoded []) with (@nil N).
    rewrite app_nil_r, app_length, <- app_assoc. cbn [rindex_loop].
    assert (Big : (4 <= length (encoded front))%nat)
      by (unfold front; rewrite encoded_app, app_length; lia).
    rewrite prev_ok by exact Hx1. rewrite skipn_app_exact, decode_one by (auto; lia).
    destruct (length (encoded front) + length (utf8 x))%nat eqn:Z; [lia|].
    rewrite <- Z.
    destruct (N.eqb_spec x chr) as [->|Ne].
    { destruct Nb. apply in_or_app. right. left. reflexivity. }
    replace (length (encoded front) + length (utf8 x) - length (utf8 x))%nat
      with (length (encoded front)) by lia.
    rewrite app_length in *. cbn [length] in *.
    assert (Ei : u32 (i + 4294967295) = i - 1) by (unfold u32, two32 in *; lia).
    rewrite Ei. unfold front.
    rewrite (IH (utf8 x ++ r) (length (utf8 x)) f (i - 1)).
    + f_equal. lia.
    + exact Hb.
    + intros In1. apply Nb. apply in_or_app. left. exact In1.
    + apply utf8_at_most.
    + lia.
    + lia.
    + lia.
Qed.

Lemma string_rindex_ok cs chr k st : text cs -> last_at cs chr k ->
  (4 <= length (encoded (firstn k cs)))%nat ->
  string_rindex (encoded cs) chr st = Ok (N.of_nat k + 1) st.
Proof.
  intros T (a & b & -> & <- & Nb) Four.
  rewrite firstn_app_exact in Four.
  pose proof (text_count _ T) as TC.
  unfold string_rindex, bind. rewrite string_length_ok by exact T.
  destruct T as [F _]. apply Forall_app in F. destruct F as [Fa Fb].
  inversion Fb as [|? ? Fc Fb1]; subst.
  pose proof (encoded_length (a ++ chr :: b)) as EL. rewrite app_length in *. cbn [length] in *.
  pose proof (rindex_loop_ok chr a st Fc Fa Four b [] 0 (length (encoded (a ++ chr :: b)))
    (N.of_nat (length a + S (length b)))) as R.
  rewrite app_nil_r in R. rewrite R; [f_equal; lia|auto|auto|lia|lia|lia|lia].
Qed.

End WithState.

(** ** Equality *)

Lemma bytes_eqb_spec a b : reflect (a = b) (bytes_eqb a b).
Proof.
  revert b. induction a as [|x a IH]; intros [|y b]; cbn; try (constructor; congruence).
  destruct (N.eqb_spec x y) as [->|Ne]; cbn.
  - destruct (IH b) as [->|Ne]; constructor; congruence.
  - constructor. congruence.
Qed.

Lemma string_isequal_iff s1 s2 :
  string_isequal s1 s2 = true <-> d_bytes (or_empty s1) = d_bytes (or_empty s2).
Proof.
  unfold string_isequal.
  destruct (d_interned (or_empty s1) && d_interned (or_empty s2)).
  - destruct (bytes_eqb_spec (d_bytes (or_empty s1)) (d_bytes (or_empty s2))); split; congruence.
  - destruct (Nat.eqb_spec (length (d_bytes (or_empty s1))) (length (d_bytes (or_empty s2)))) as [E|Ne]; cbn [negb].
    + destruct (bytes_eqb_spec (d_bytes (or_empty s1)) (d_bytes (or_empty s2))); split; congruence.
    + split; [discriminate|]. intros E. rewrite E in Ne. congruence.
Qed.

Lemma dolower_iff x y : dolower x = dolower y <-> same_but_case x y.
Proof.
  unfold same_but_case, upper_ascii, dolower.
  destruct ((65 <=? x) && (x <=? 90)) eqn:X, ((65 <=? y) && (y <=? 90)) eqn:Y; lia.
Qed.

Lemma caseless_loop_iff a b : length a = length b ->
  (caseless_loop a b = true <-> Forall2 same_but_case a b).
Proof.
  revert b. induction a as [|x a IH]; intros [|y b] L; try discriminate.
  - split; [constructor|reflexivity].
  - cbn [caseless_loop]. destruct (N.eqb_spec (dolower x) (dolower y)) as [E|Ne].
    + rewrite IH by (injection L; auto). apply dolower_iff in E. split.
      * intros. constructor; assumption.
      * intros H. inversion H; assumption.
    + split; [discriminate|]. intros H. inversion H as [|? ? ? ? H1 ?]; subst. apply dolower_iff in H1.
      congruence.
Qed.

Lemma map_dolower_iff a b : map dolower a = map dolower b <-> Forall2 same_but_case a b.
Proof.
  revert b. induction a as [|x a IH]; intros [|y b]; cbn [map].
  - split; [constructor|reflexivity].
  - split; [discriminate|inversion 1].
  - split; [discriminate|inversion 1].
  - split.
    + intros H. injection H as H1 H2. constructor; [apply dolower_iff|apply IH]; assumption.
    + intros H. inversion H as [|? ? ? ? H1 H2]; subst. f_equal; [apply dolower_iff|apply IH]; assumption.
Qed.

Lemma Forall2_len {A B} (P : A -> B -> Prop) a b : Forall2 P a b -> length a = length b.
Proof. induction 1; cbn; congruence. Qed.

Lemma string_caseless_iff s1 s2 :
  string_caseless_isequal s1 s2 = true <->
  Forall2 same_but_case (d_bytes (or_empty s1)) (d_bytes (or_empty s2)).
Proof.
  unfold string_caseless_isequal.
  destruct (d_interned (or_empty s1) && d_interned (or_empty s2)).
  - rewrite <- map_dolower_iff.
    destruct (bytes_eqb_spec (map dolower (d_bytes (or_empty s1))) (map dolower (d_bytes (or_empty s2))));
      split; congruence.
  - destruct (Nat.eqb_spec (length (d_bytes (or_empty s1))) (length (d_bytes (or_empty s2)))) as [E|Ne]; cbn [negb].
    + apply caseless_loop_iff. exact E.
    + split; [discriminate|]. intros E. apply Forall2_len in E. congruence.
Qed.

(** ** Case *)

Lemma dolower_twice c : dolower (dolower c) = dolower c.
Proof. unfold dolower. destruct ((65 <=? c) && (c <=? 90)) eqn:E; [|rewrite E; reflexivity].
  destruct ((65 <=? c + 97 - 65) && (c + 97 - 65 <=? 90)) eqn:F; lia. Qed.

Lemma doupper_case c : same_but_case (doupper c) c.
Proof.
  unfold same_but_case, upper_ascii, doupper.
  destruct ((97 <=? c) && (c <=? 122)) eqn:E; lia.
Qed.

Lemma dolower_case c : same_but_case (dolower c) c.
Proof.
  unfold same_but_case, upper_ascii, dolower.
  destruct ((65 <=? c) && (c <=? 90)) eqn:E; lia.
Qed.

Lemma doupper_no_lower c : ~ lower_ascii (doupper c).
Proof. unfold lower_ascii, doupper. destruct ((97 <=? c) && (c <=? 122)) eqn:E; lia. Qed.

Lemma dolower_no_upper c : ~ upper_ascii (dolower c).
Proof. unfold upper_ascii, dolower. destruct ((65 <=? c) && (c <=? 90)) eqn:E; lia. Qed.

Lemma Forall2_map_l {A} (P : A -> A -> Prop) f (l : list A) : (forall x, P (f x) x) -> Forall2 P (map f l) l.
Proof. intros H. induction l; cbn; constructor; auto. Qed.

Lemma Forall_map_all {A} (P : A -> Prop) f (l : list A) : (forall x, P (f x)) -> Forall P (map f l).
Proof. intros H. induction l; cbn; constructor; auto. Qed.

(** ** Whitespace *)

Lemma is_ws_iff c : is_ws c = true <-> white c.
Proof. unfold is_ws, white. lia. Qed.

Lemma is_ws_false c : is_ws c = false <-> ~ white c.
Proof. rewrite <- is_ws_iff. destruct (is_ws c); intuition congruence. Qed.

Lemma skip_ws_ok s : stripped_front s (skip_ws s).
Proof.
  induction s as [|c s IH].
  - exists []. repeat split; [constructor|]. intros c H. discriminate.
  - cbn [skip_ws]. destruct (is_ws c) eqn:W.
    + destruct IH as (w & E & F & H). exists (c :: w). cbn [app]. rewrite <- E. repeat split; auto.
      constructor; [apply is_ws_iff; exact W|exact F].
    + exists []. repeat split; [constructor|]. intros x Hx. injection Hx as <-. apply is_ws_false. exact W.
Qed.

Lemma strip_end_ok s : stripped_back s (strip_end s).
Proof.
  unfold strip_end. destruct (skip_ws_ok (rev s)) as (w & E & F & H).
  exists (rev w). split; [|split].
  - apply (f_equal (@rev N)) in E. rewrite rev_involutive, rev_app_distr in E. exact E.
  - apply Forall_rev. exact F.
  - unfold last_error. rewrite rev_involutive. exact H.
Qed.

Lemma copy_loop_id s b : copy_loop false b s = s.
Proof. revert b. induction s as [|c s IH]; intros b; cbn; [reflexivity|]. rewrite IH. reflexivity. Qed.

Lemma copy_loop_ok s :
  collapsed s (copy_loop true false s) /\
  exists w s', s = w ++ s' /\ Forall white w /\ (forall c, hd_error s' = Some c -> ~ white c) /\
    collapsed s' (copy_loop true true s).
Proof.
  induction s as [|c s [IH1 (w & s' & E & F & H & IH2)]].
  - split; [constructor|]. exists (@nil N), (@nil N). repeat split; try constructor. intros c H. discriminate.
  - cbn [copy_loop andb]. destruct (is_ws c) eqn:W.
    + apply is_ws_iff in W. split.
      * rewrite E. change (c :: w ++ s') with ((c :: w) ++ s'). rewrite <- E.
        apply col_run; [discriminate|constructor; assumption|exact H|exact IH2].
      * exists (c :: w), s'. cbn [app]. rewrite <- E. repeat split; auto.
    + apply is_ws_false in W. split.
      * apply col_char; assumption.
      * exists (@nil N), (c :: s). repeat split; [constructor|intros x Hx; injection Hx as <-; exact W|].
        apply col_char; assumption.
Qed.

Lemma whitespace_op_ok {St} d (leading trailing collapse : bool) (st : St) :
  exists a b t,
    (if leading then stripped_front (d_bytes d) a else a = d_bytes d) /\
    (if collapse then collapsed a b else b = a) /\
    (if trailing then stripped_back b t else t = b) /\
    string_whitespace_op (Some d) leading trailing collapse st = Ok (mk_dstr (d_interned d) t) st.
Proof.
  set (a := if leading then skip_ws (d_bytes d) else d_bytes d).
  set (b := copy_loop collapse false a).
  exists a, b, (if trailing then strip_end b else b). repeat split.
  - unfold a. destruct leading; [apply skip_ws_ok|reflexivity].
  - unfold b. destruct collapse; [apply copy_loop_ok|apply copy_loop_id].
  - destruct trailing; [apply strip_end_ok|reflexivity].
Qed.

(** ** Combined laws *)

Lemma text_parts a b : text (a ++ b) -> text a /\ text b.
Proof.
  intros [F L]. apply Forall_app in F. rewrite encoded_app, app_length in L.
  split; split; try apply F; lia.
Qed.

Lemma insert_delete {St} cs src i (st : St) : text cs -> text src ->
  N.of_nat (length (encoded cs) + length (encoded src)) < two32 ->
  i <= N.of_nat (length cs) ->
  exists mid,
    string_insert (encoded cs) (encoded src) i st = Ok mid st /\
    string_replace mid (encoded []) i (i + N.of_nat (length src)) st = Ok (encoded cs) st.
Proof.
  intros T Ts Hl Hi. pose proof (text_count cs T) as TC.
  set (new := firstn (N.to_nat i) cs ++ src ++ skipn (N.to_nat i) cs).
  assert (En : encoded new = encoded (firstn (N.to_nat i) cs) ++ encoded src ++ encoded (skipn (N.to_nat i) cs))
    by (unfold new; rewrite !encoded_app; reflexivity).
  assert (Ec : encoded cs = encoded (firstn (N.to_nat i) cs) ++ encoded (skipn (N.to_nat i) cs))
    by (rewrite <- encoded_app, firstn_skipn; reflexivity).
  assert (Tn : text new).
  { split.
    - unfold new. rewrite !Forall_app. destruct T as [T _]. rewrite <- (firstn_skipn (N.to_nat i) cs) in T.
      apply Forall_app in T. destruct T as [T1 T2]. repeat split; auto. apply Ts.
    - rewrite En. rewrite Ec in Hl. rewrite !app_length in *. lia. }
  assert (Ln : length new = (length cs + length src)%nat).
  { unfold new. rewrite !app_length, firstn_length, skipn_length. lia. }
  pose proof (text_count new Tn) as TN. rewrite Ln in TN.
  exists (encoded new). split.
  - rewrite string_insert_ok by (auto; lia).
    destruct (N.leb_spec i (N.of_nat (length cs))); [|lia]. rewrite En. reflexivity.
  - rewrite string_replace_ok by (auto; lia). rewrite Ln.
    destruct (N.leb_spec i (i + N.of_nat (length src))); [|lia].
    destruct (N.leb_spec (i + N.of_nat (length src)) (N.of_nat (length cs + length src))); [|lia].
    cbn [andb]. change (encoded []) with (@nil N). cbn [app]. rewrite Ec.
    apply (f_equal (fun x => Ok x st)). f_equal.
    + f_equal. unfold new. rewrite firstn_app, firstn_length, firstn_firstn.
      replace (N.to_nat i - Nat.min (N.to_nat i) (length cs))%nat with 0%nat by lia.
      cbn [firstn]. rewrite app_nil_r, Nat.min_id. reflexivity.
    + f_equal. unfold new. rewrite app_assoc.
      replace (N.to_nat (i + N.of_nat (length src))) with (length (firstn (N.to_nat i) cs ++ src))
        by (rewrite app_length, firstn_length; lia).
      apply skipn_app_exact.
Qed.

Lemma at_index {St} cs c k (st : St) : text cs -> first_at cs c k ->
  string_at (encoded cs) (N.of_nat k) st = Ok (Some c) st.
Proof.
  intros T (a & b & -> & <- & _). pose proof (text_count _ T) as TC.
  rewrite app_length in TC. cbn [length] in TC.
  rewrite string_at_ok by (auto; lia). rewrite Nat2N.id, nth_error_app2, Nat.sub_diag by lia.
  reflexivity.
Qed.

Lemma same_but_case_sym x y : same_but_case x y -> same_but_case y x.
Proof. unfold same_but_case. intuition. Qed.

Lemma same_but_case_trans x y z : same_but_case x y -> same_but_case y z -> same_but_case x z.
Proof. unfold same_but_case, upper_ascii. intuition lia. Qed.

Lemma caseless_refl s : string_caseless_isequal s s = true.
Proof. apply string_caseless_iff. generalize (d_bytes (or_empty s)). induction b; constructor; auto. left. reflexivity. Qed.

Lemma caseless_sym s t : string_caseless_isequal s t = true -> string_caseless_isequal t s = true.
Proof.
  rewrite !string_caseless_iff. induction 1; constructor; auto using same_but_case_sym.
Qed.

Lemma caseless_trans s t u : string_caseless_isequal s t = true ->
  string_caseless_isequal t u = true -> string_caseless_isequal s u = true.
Proof.
  rewrite !string_caseless_iff. intros H. revert H.
  generalize (d_bytes (or_empty s)) (d_bytes (or_empty t)) (d_bytes (or_empty u)).
  intros a b c H. revert c. induction H as [|x y a b H1 H2 IH]; intros c K; inversion K; subst; constructor.
  - eapply same_but_case_trans; eassumption.
  - apply IH. assumption.
Qed.

Lemma isequal_caseless s t : string_isequal s t = true -> string_caseless_isequal s t = true.
Proof.
  rewrite string_isequal_iff, string_caseless_iff. intros ->.
  induction (d_bytes (or_empty t)); constructor; auto. left. reflexivity.
Qed.

Lemma hash_equal {St} a b (st : St) : string_isequal (Some a) (Some b) = true ->
  string_hash (Some a) st = string_hash (Some b) st.
Proof. rewrite string_isequal_iff. cbn [or_empty]. intros E. unfold string_hash. rewrite E. reflexivity. Qed.

Lemma lxor_word a b : a < 4294967296 -> b < 256 -> N.lxor a b < 4294967296.
Proof.
  intros A B. assert (E : N.lxor a b mod 2 ^ 32 = N.lxor a b).
  { apply N.bits_inj. intros k. destruct (N.lt_ge_cases k 32) as [K|K].
    - rewrite N.mod_pow2_bits_low by auto. reflexivity.
    - rewrite N.mod_pow2_bits_high by auto. rewrite N.lxor_spec.
      assert (Z : forall x, x < 2 ^ 32 -> N.testbit x k = false).
      { intros x X. rewrite <- (N.mod_small x (2 ^ 32) X). apply N.mod_pow2_bits_high. auto. }
      rewrite !Z; auto. change (2 ^ 32) with 4294967296. lia. }
  rewrite <- E. apply N.mod_lt. discriminate.
Qed.

Lemma hash_word {St} a (st : St) : Forall (fun c => c < 256) (d_bytes a) ->
  exists w, string_hash (Some a) st = Ok w st /\ w < 4294967296.
Proof.
  intros F. eexists. split; [reflexivity|]. assert (L : 2166136261 < 4294967296) by reflexivity.
  revert L. generalize 2166136261 as w. induction F as [|c l C F IH]; intros w W; cbn [fold_left]; auto.
  apply IH. apply lxor_word; auto. unfold u32. apply N.mod_lt. discriminate.
Qed.

Lemma toupper_ok {St} d (st : St) : exists u,
  string_toupper (Some d) true st = Ok u st /\
  string_caseless_isequal (Some u) (Some d) = true /\
  Forall (fun c => ~ lower_ascii c) (d_bytes u) /\
  d_interned u = d_interned d /\
  string_toupper (Some u) true st = Ok u st.
Proof.
  exists (mk_dstr (d_interned d) (map doupper (d_bytes d))). split; [reflexivity|].
  split; [apply string_caseless_iff; cbn; apply Forall2_map_l; exact doupper_case|].
  split; [cbn; apply Forall_map_all; exact doupper_no_lower|]. split; [reflexivity|].
  unfold string_toupper. cbn. unfold ret. do 2 f_equal. rewrite map_map. apply map_ext.
  intros c. pose proof (doupper_no_lower c) as H. unfold lower_ascii in H.
  unfold doupper at 1. destruct ((97 <=? doupper c) && (doupper c <=? 122)) eqn:E; [lia|reflexivity].
Qed.

Lemma tolower_ok {St} d (st : St) : exists u,
  string_tolower (Some d) true st = Ok u st /\
  string_caseless_isequal (Some u) (Some d) = true /\
  Forall (fun c => ~ upper_ascii c) (d_bytes u) /\
  d_interned u = d_interned d /\
  string_tolower (Some u) true st = Ok u st.
Proof.
  assert (I : forall l, map dolower (map dolower l) = map dolower l).
  { intros l. rewrite map_map. apply map_ext. exact dolower_twice. }
  exists (mk_dstr (d_interned d) (map dolower (d_bytes d))).
  assert (E : string_tolower (Some d) true st = Ok (mk_dstr (d_interned d) (map dolower (d_bytes d))) st).
  { unfold string_tolower. cbn. destruct d as [i b]; cbn. destruct i; [|reflexivity].
    destruct (bytes_eqb_spec b (map dolower b)) as [E|]; [|reflexivity]. unfold ret. rewrite <- E. reflexivity. }
  split; [exact E|].
  split; [apply string_caseless_iff; cbn; apply Forall2_map_l; exact dolower_case|].
  split; [cbn; apply Forall_map_all; exact dolower_no_upper|]. split; [reflexivity|].
  unfold string_tolower. cbn. destruct (d_interned d).
  - rewrite I. destruct (bytes_eqb_spec (map dolower (d_bytes d)) (map dolower (d_bytes d))); [reflexivity|congruence].
  - rewrite I. reflexivity.
Qed.
