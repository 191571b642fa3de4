(** * C20: random generators. *)
From Coq Require Import NArith Lra.
From Verif Require Import GoBase GoBaseFacts RealBase LoopBase LoopFacts RandModel RandSpec InterpProofs.
Local Open Scope N_scope.

(** ** uint32 bit operations *)
Lemma lt_pow2_bits a n : (forall m, n <= m -> N.testbit a m = false) -> a < 2 ^ n.
Proof.
  intros H. destruct (N.eq_dec a 0) as [->|Ha]; [apply N.neq_0_lt_0; now apply N.pow_nonzero|].
  destruct (N.lt_ge_cases (N.log2 a) n) as [Hl|Hl].
  - apply N.log2_lt_pow2; lia.
  - specialize (H _ Hl). rewrite N.bit_log2 in H by assumption. discriminate.
Qed.

Lemma bits_above a n m : a < 2 ^ n -> n <= m -> N.testbit a m = false.
Proof.
  intros H Hm. destruct (N.eq_dec a 0) as [->|Ha]; [apply N.bits_0|]. apply N.bits_above_log2.
  apply N.log2_lt_pow2 in H; lia.
Qed.

Lemma lxor_lt a b n : a < 2 ^ n -> b < 2 ^ n -> N.lxor a b < 2 ^ n.
Proof.
  intros Ha Hb. apply lt_pow2_bits. intros m Hm. rewrite N.lxor_spec, (bits_above a n m), (bits_above b n m) by assumption. reflexivity.
Qed.

Lemma shiftr_lt a k n : a < 2 ^ n -> N.shiftr a k < 2 ^ n.
Proof.
  intros Ha. apply lt_pow2_bits. intros m Hm. rewrite N.shiftr_spec by lia. apply (bits_above a n); [assumption|lia].
Qed.

Lemma u32_lt x : u32 x < 2 ^ 32.
Proof. apply N.mod_lt. discriminate. Qed.

Definition xs_valid (g : xorshift) : Prop := xs_w g < 2 ^ 32 /\ xs_x g < 2 ^ 32 /\ xs_y g < 2 ^ 32 /\ xs_z g < 2 ^ 32.
Definition xs_nonzero (g : xorshift) : Prop := ~ (xs_w g = 0 /\ xs_x g = 0 /\ xs_y g = 0 /\ xs_z g = 0).

Lemma xs_step_valid g : xs_valid g -> xs_valid (xs_step g).
Proof.
  intros (Hw & Hx & Hy & Hz). unfold xs_step, xs_valid. cbn [xs_w xs_x xs_y xs_z].
  assert (Ht : N.lxor (xs_x g) (u32 (N.shiftl (xs_x g) 11)) < 2 ^ 32) by (apply lxor_lt; [assumption|apply u32_lt]).
  split; [|auto]. apply lxor_lt; apply lxor_lt; try assumption; apply shiftr_lt; assumption.
Qed.

Lemma lxor_shiftr_zero t : N.lxor t (N.shiftr t 8) = 0 -> t = 0.
Proof.
  intros H. apply N.lxor_eq in H. rewrite N.shiftr_div_pow2 in H. change (2 ^ 8) with 256 in H.
  pose proof (N.div_mod t 256 ltac:(discriminate)). pose proof (N.mod_lt t 256 ltac:(discriminate)). lia.
Qed.

Lemma lxor_shiftl_zero x : x < 2 ^ 32 -> N.lxor x (u32 (N.shiftl x 11)) = 0 -> x = 0.
Proof.
  intros Hx H. apply N.lxor_eq in H. unfold u32 in H. rewrite N.shiftl_mul_pow2 in H.
  pose proof (N.div_mod (x * 2 ^ 11) (2 ^ 32) ltac:(discriminate)) as E. rewrite <- H in E.
  set (q := x * 2 ^ 11 / 2 ^ 32) in *.
  change (2 ^ 11) with 2048 in E. change (2 ^ 32) with 4294967296 in *.
  (* 2047 x = 2^32 q with 2047 odd *)
  assert (E2 : 2047 * x = 4294967296 * q) by lia.
  assert (Hdiv : N.divide 4294967296 (2047 * x)) by (exists q; lia).
  apply N.gauss in Hdiv; [|reflexivity].
  destruct Hdiv as (c & Hc). destruct (N.eq_dec c 0); [subst; lia|]. nia.
Qed.

Lemma xs_step_nonzero g : xs_valid g -> xs_nonzero g -> xs_nonzero (xs_step g).
Proof.
  intros (Hw & Hx & Hy & Hz) Hn (E1 & E2 & E3 & E4). apply Hn. unfold xs_step in *. cbn [xs_w xs_x xs_y xs_z] in *.
  rewrite E4 in E1. change (N.shiftr 0 19) with 0 in E1. rewrite N.lxor_0_r, N.lxor_0_l in E1.
  apply lxor_shiftr_zero in E1. apply lxor_shiftl_zero in E1; [auto|assumption].
Qed.

Lemma xs_init_ok seed : xs_valid (xs_init seed) /\ xs_nonzero (xs_init seed).
Proof.
  split; [repeat split; cbn [xs_init xs_w xs_x xs_y xs_z]; try reflexivity; apply u32_lt|].
  intros (_ & H & _). discriminate.
Qed.

Lemma xs_value_range g : xs_valid g -> (0 <= xs_value g <= 1)%R /\ (xs_value g = 1%R <-> xs_w g = 0).
Proof.
  intros (Hw & _). unfold xs_value.
  assert (Hm : Z.of_N maxUint32 = 4294967295%Z) by reflexivity. rewrite Hm.
  assert (Hw' : (0 <= Z.of_N (maxUint32 - xs_w g) <= 4294967295)%Z /\ Z.of_N (maxUint32 - xs_w g) = (4294967295 - Z.of_N (xs_w g))%Z).
  { change (2 ^ 32) with 4294967296 in Hw. unfold maxUint32. change (2 ^ 32 - 1) with 4294967295. lia. }
  destruct Hw' as [Hr ->]. 
  assert (Hr1 : (0 <= IZR (4294967295 - Z.of_N (xs_w g)))%R) by (apply (IZR_le 0); change (2 ^ 32) with 4294967296 in Hw; lia).
  assert (Hr2 : (IZR (4294967295 - Z.of_N (xs_w g)) <= 4294967295)%R) by (apply IZR_le; lia).
  split.
  - split.
    + apply Rmult_le_pos; [assumption|lra].
    + apply Rmult_le_reg_r with 4294967295%R; [lra|]. unfold Rdiv. rewrite Rmult_assoc, Rinv_l, Rmult_1_r by lra. lra.
  - split; intros E.
    + assert (E2 : IZR (4294967295 - Z.of_N (xs_w g)) = 4294967295%R).
      { apply Rmult_eq_reg_r with (/ 4294967295)%R; [|lra]. unfold Rdiv in E. rewrite E. field. }
      apply eq_IZR in E2. lia.
    + rewrite E. change (4294967295 - Z.of_N 0)%Z with 4294967295%Z. field.
Qed.

Definition xs_good (g : xorshift) : Prop := xs_valid g /\ xs_nonzero g.
Lemma xs_step_good g : xs_good g -> xs_good (xs_step g).
Proof. intros [H1 H2]. split; [now apply xs_step_valid|now apply xs_step_nonzero]. Qed.

(** Next terminates within four passes from every good state. *)
Lemma xs_next_ok g : xs_good g -> exists v g', xs_next g = Some (v, g') /\ xs_good g' /\ unit_interval v.
Proof.
  intros H0. set (g1 := xs_step g). set (g2 := xs_step g1). set (g3 := xs_step g2). set (g4 := xs_step g3).
  assert (H1 : xs_good g1) by now apply xs_step_good. assert (H2 : xs_good g2) by now apply xs_step_good.
  assert (H3 : xs_good g3) by now apply xs_step_good. assert (H4 : xs_good g4) by now apply xs_step_good.
  assert (Hfin : forall h, xs_good h -> xs_value h <> 1%R -> exists v g', Some (xs_value h, h) = Some (v, g') /\ xs_good g' /\ unit_interval v).
  { intros h Hh Hne. exists (xs_value h), h. split; [reflexivity|]. split; [assumption|].
    destruct (xs_value_range h (proj1 Hh)) as [Hr _]. unfold unit_interval. lra. }
  unfold xs_next. cbn [xs_nextF]. fold g1 g2 g3 g4.
  destruct (Reqb (xs_value g1) 1) eqn:E1; [|apply Reqb_false in E1; now apply Hfin]. apply Reqb_true in E1.
  destruct (Reqb (xs_value g2) 1) eqn:E2; [|apply Reqb_false in E2; now apply Hfin]. apply Reqb_true in E2.
  destruct (Reqb (xs_value g3) 1) eqn:E3; [|apply Reqb_false in E3; now apply Hfin]. apply Reqb_true in E3.
  destruct (Reqb (xs_value g4) 1) eqn:E4; [|apply Reqb_false in E4; now apply Hfin]. apply Reqb_true in E4.
  exfalso. apply (xs_value_range _ (proj1 H1)) in E1. apply (xs_value_range _ (proj1 H2)) in E2.
  apply (xs_value_range _ (proj1 H3)) in E3. apply (xs_value_range _ (proj1 H4)) in E4.
  apply (proj2 H4). split; [exact E4|]. split; [exact E1|]. split; [exact E2|exact E3].
Qed.

(** ** Generic facts about draws *)
Lemma draws_good {S : Type} (P : S -> Prop) next :
  (forall s, P s -> exists v s', next s = Some (v, s') /\ P s' /\ unit_interval v) ->
  forall n s, P s -> exists vs s', draws next n s = Some (vs, s') /\ P s' /\ List.length vs = n /\ Forall unit_interval vs.
Proof.
  intros H n. induction n as [|n IH]; intros s Hs.
  - exists [], s. repeat split; auto.
  - destruct (H s Hs) as (v & s' & E & Hs' & Hv). destruct (IH s' Hs') as (vs & s'' & E' & Hs'' & L & F).
    exists (v :: vs), s''. cbn. rewrite E, E'. repeat split; auto.
Qed.

Lemma draws_app {S : Type} next a : forall b (s : S) vs s' ws s'',
  draws next a s = Some (vs, s') -> draws next b s' = Some (ws, s'') -> draws next (a + b) s = Some (vs ++ ws, s'').
Proof.
  induction a as [|a IH]; intros b s vs s' ws s'' E1 E2; cbn in *.
  - injection E1 as <- <-. exact E2.
  - destruct (next s) as [[v t]|]; [|discriminate]. destruct (draws next a t) as [[vs' t']|] eqn:E; [|discriminate].
    injection E1 as <- <-. now rewrite (IH b t vs' t' ws s'' E E2).
Qed.

(** ** Writing a slice element by element *)
Lemma wr_firstn {A} (l l' : list A) i v : wr l i v = Some l' ->
  firstn (S i) l' = firstn i l ++ [v] /\ skipn (S i) l' = skipn (S i) l.
Proof.
  revert l' i. induction l as [|a l IH]; intros l' i E; [destruct i; discriminate|].
  destruct i as [|i]; cbn in E.
  - injection E as <-. auto.
  - unfold wr in IH. destruct (upd l i v) as [l2|] eqn:E2; [|discriminate]. injection E as <-.
    destruct (IH l2 i E2) as [H1 H2]. cbn [firstn skipn]. cbn [firstn skipn] in H1, H2. split; [now rewrite H1|exact H2].
Qed.

(** A loop that draws once per element fills the slice with successive draws. *)
Lemma fill_loop {S : Type} (next : S -> option (R * S)) body n : forall target s,
  List.length target = n ->
  (forall i t s v s', (i < n)%nat -> List.length t = n -> next s = Some (v, s') -> body i (t, s) = (do t' <- wr t i v; Some (t', s'))) ->
  forall vs s', draws next n s = Some (vs, s') -> loop n body (target, s) = Some (vs, s').
Proof.
  intros target s L Hb vs s' Hd.
  assert (Hg : forall k, (k <= n)%nat -> forall ws t, draws next k s = Some (ws, t) ->
     exists tg, loop k body (target, s) = Some (tg, t) /\ List.length tg = n /\ firstn k tg = ws).
  { intros k. induction k as [|k IH]; intros Hk ws t E.
    - injection E as <- <-. exists target. auto.
    - assert (Hex : exists ws0 t0 v, draws next k s = Some (ws0, t0) /\ next t0 = Some (v, t) /\ ws = ws0 ++ [v]).
      { clear - E. revert s ws E. induction k as [|k IH]; intros s ws E.
        - cbn in E. destruct (next s) as [[v s']|] eqn:En; [|discriminate]. injection E as <- <-. exists [], s, v. auto.
        - cbn [draws] in E. destruct (next s) as [[v s']|] eqn:En; [|discriminate].
          match type of E with match ?d with _ => _ end = _ => destruct d as [[vs s'']|] eqn:Ed; [|discriminate] end.
          injection E as <- <-. destruct (IH s' vs) as (ws0 & t0 & w & E1 & E2 & E3); [exact Ed|].
          exists (v :: ws0), t0, w. cbn [draws]. rewrite En, E1. split; [reflexivity|]. split; [assumption|]. rewrite E3. reflexivity. }
      destruct Hex as (ws0 & t0 & v & E0 & Ev & ->).
      destruct (IH ltac:(lia) ws0 t0 E0) as (tg & El & Lt & Ft).
      cbn [loop]. rewrite El. rewrite (Hb k tg t0 v t) by (assumption || lia).
      destruct (wr_some tg k v 0%R) as (tg' & Ew & Lw & _); [lia|]. rewrite Ew.
      exists tg'. split; [reflexivity|]. split; [lia|]. destruct (wr_firstn _ _ _ _ Ew) as [-> _]. now rewrite Ft. }
  destruct (Hg n (le_n n) vs s' Hd) as (tg & E & Lt & Ft). rewrite E. f_equal. f_equal. rewrite <- Ft. symmetry. apply firstn_all2. lia.
Qed.

(** ** xorshift NextSequence *)
Lemma wr_wr {A} (t t1 : list A) i a b : wr t i a = Some t1 -> wr t1 i b = wr t i b.
Proof.
  unfold wr. revert t1 i. induction t as [|x t IH]; intros t1 i E; [destruct i; discriminate|].
  destruct i as [|i]; cbn in E; [now injection E as <-|].
  destruct (upd t i a) as [t2|] eqn:E2; [|discriminate]. injection E as <-. cbn. now rewrite (IH t2 i E2).
Qed.

Lemma xs_seqF_one k : forall g v g', xs_nextF k g = Some (v, g') ->
  exists c, (1 <= c <= k)%nat /\ forall fuel i target t1, (i < List.length target)%nat -> wr target i v = Some t1 ->
    xs_seqF (c + fuel) i target g = xs_seqF fuel (i + 1) t1 g'.
Proof.
  induction k as [|k IH]; intros g v g' E; [discriminate|]. cbn [xs_nextF] in E.
  destruct (Reqb (xs_value (xs_step g)) 1) eqn:Er.
  - destruct (IH _ _ _ E) as (c & Hc & H). exists (S c). split; [lia|]. intros fuel i target t1 Hi Hw.
    cbn [plus xs_seqF]. rewrite (proj2 (Nat.ltb_lt i (List.length target)) Hi).
    destruct (wr_some target i (xs_value (xs_step g)) 0%R Hi) as (t2 & E2 & L2 & _). rewrite E2, Er.
    apply H; [lia|]. now rewrite (wr_wr _ _ _ _ v E2).
  - injection E as <- <-. exists 1%nat. split; [lia|]. intros fuel i target t1 Hi Hw.
    cbn [plus xs_seqF]. rewrite (proj2 (Nat.ltb_lt i (List.length target)) Hi). now rewrite Hw, Er.
Qed.

Lemma xs_seqF_more f1 : forall f2 i t g r, xs_seqF f1 i t g = Some r -> (f1 <= f2)%nat -> xs_seqF f2 i t g = Some r.
Proof.
  induction f1 as [|f1 IH]; intros f2 i t g r E H; [discriminate|]. destruct f2 as [|f2]; [lia|].
  cbn [xs_seqF] in *. destruct (i <? List.length t)%nat; [|exact E].
  destruct (wr t i (xs_value (xs_step g))) as [t'|]; [|discriminate].
  destruct (Reqb (xs_value (xs_step g)) 1); (apply IH; [exact E|lia]).
Qed.

Lemma xs_seqF_ok r : forall i target g vs g', (i + r = List.length target)%nat -> draws xs_next r g = Some (vs, g') ->
  xs_seqF (4 * r + 1) i target g = Some (firstn i target ++ vs, g').
Proof.
  induction r as [|r IH]; intros i target g vs g' Hi Hd.
  - injection Hd as <- <-. cbn [Nat.mul plus xs_seqF]. rewrite (proj2 (Nat.ltb_ge i (List.length target))) by lia.
    rewrite app_nil_r, firstn_all2 by lia. reflexivity.
  - cbn [draws] in Hd. destruct (xs_next g) as [[v g1]|] eqn:En; [|discriminate].
    destruct (draws xs_next r g1) as [[ws g2]|] eqn:Ed; [|discriminate]. injection Hd as <- <-.
    destruct (xs_seqF_one 4 _ _ _ En) as (c & Hc & H).
    destruct (wr_some target i v 0%R ltac:(lia)) as (t1 & E1 & L1 & _).
    apply (xs_seqF_more (c + (4 * r + 1))); [|lia]. rewrite (H _ _ _ t1) by (assumption || lia).
    rewrite (IH (i + 1)%nat t1 g1 ws g2) by (assumption || lia).
    destruct (wr_firstn _ _ _ _ E1) as [Ef _]. replace (i + 1)%nat with (S i) by lia. rewrite Ef, <- app_assoc. reflexivity.
Qed.

Lemma xs_nextSequence_ok target g vs g' : draws xs_next (List.length target) g = Some (vs, g') -> xs_nextSequence target g = Some (vs, g').
Proof. intros H. unfold xs_nextSequence. now rewrite (xs_seqF_ok (List.length target) 0 target g vs g' eq_refl H). Qed.

(** ** Go generator *)
Lemma go_nextSequence_ok {S : Type} (gf : S -> R * S) target s vs s' :
  draws (go_next gf) (List.length target) s = Some (vs, s') -> go_nextSequence gf target s = Some (vs, s').
Proof.
  intros H. unfold go_nextSequence. apply (fill_loop (go_next gf)); [reflexivity| |exact H].
  intros i t s0 v s1 Hi L E. unfold go_next in E. injection E as E. now rewrite E.
Qed.

(** ** Tausworthe *)
Definition t_good (g : tausworthe) : Prop :=
  Forall unit_interval (t_seq g) /\ (t_leader g < List.length (t_seq g))%nat /\ (t_first g < List.length (t_seq g))%nat /\ (t_second g < List.length (t_seq g))%nat.

Lemma Forall_nth_unit l i : Forall unit_interval l -> (i < List.length l)%nat -> unit_interval (nth i l 0%R).
Proof. intros H Hi. rewrite Forall_forall in H. apply H. now apply nth_In. Qed.

Lemma wr_Forall {A} (P : A -> Prop) l l' i v : Forall P l -> P v -> wr l i v = Some l' -> Forall P l'.
Proof.
  unfold wr. revert l' i. induction l as [|a l IH]; intros l' i H Hv E; [destruct i; discriminate|].
  inversion H; subst. destruct i as [|i]; cbn in E.
  - injection E as <-. now constructor.
  - destruct (upd l i v) as [l2|] eqn:E2; [|discriminate]. injection E as <-. constructor; [assumption|]. now apply (IH l2 i).
Qed.

Lemma t_next_ok g : t_good g -> exists v g', t_next g = Some (v, g') /\ t_good g' /\ unit_interval v.
Proof.
  intros (HF & H1 & H2 & H3). unfold t_next.
  rewrite (rd_nth _ _ 0%R H2), (rd_nth _ _ 0%R H3).
  pose proof (Forall_nth_unit _ _ HF H2) as [A1 A2]. pose proof (Forall_nth_unit _ _ HF H3) as [B1 B2].
  set (a := nth (t_first g) (t_seq g) 0%R) in *. set (b := nth (t_second g) (t_seq g) 0%R) in *.
  set (v := (if Rltb (a - b) 0 then a - b + 1 else a - b)%R).
  assert (Hv : unit_interval v).
  { unfold v, unit_interval. destruct (Rltb (a - b) 0) eqn:E; [apply Rltb_true in E|apply Rltb_false in E]; lra. }
  destruct (wr_some (t_seq g) (t_leader g) v 0%R H1) as (s & E & L & _). rewrite E.
  eexists _, _. split; [reflexivity|]. split; [|exact Hv].
  unfold t_good. cbn [t_seq t_leader t_first t_second]. rewrite L.
  assert (Hw : forall i, (i < List.length (t_seq g))%nat -> (wrapDec (List.length (t_seq g)) i < List.length (t_seq g))%nat).
  { intros i Hi. unfold wrapDec. destruct (Nat.eqb_spec i 0); lia. }
  split; [exact (wr_Forall _ _ _ _ _ HF Hv E)|]. auto.
Qed.

Lemma t_nextSequence_ok target g vs g' : draws t_next (List.length target) g = Some (vs, g') -> t_nextSequence target g = Some (vs, g').
Proof.
  intros H. unfold t_nextSequence. apply (fill_loop t_next); [reflexivity| |exact H].
  intros i t s0 v s1 Hi L E. unfold t_next in E.
  destruct (rd (t_seq s0) (t_first s0)); [|discriminate]. destruct (rd (t_seq s0) (t_second s0)); [|discriminate].
  cbv zeta in E |- *.
  match type of E with match ?w with _ => _ end = _ => destruct w; [|discriminate] end. injection E as <- <-. reflexivity.
Qed.

(** Init: every entry is a sum of 15 draws scaled by 1, 1/2, 1/4, ..., folded into [0,1). *)
Lemma uniform_zero {S : Type} (gf : S -> R * S) f s : (forall s, unit_interval (fst (gf s))) -> (0 < f)%R ->
  exists v s', uniform (go_next gf) 0 f s = Some (v, s') /\ (0 <= v < f)%R.
Proof.
  intros Hg Hf. unfold uniform, go_next. pose proof (Hg s) as [G1 G2]. destruct (gf s) as [v s'] eqn:E. cbn [fst] in G1, G2.
  destruct (Reqb 0 0 && Reqb f 1) eqn:Eb.
  - apply andb_true_iff in Eb. destruct Eb as [_ Eb]. apply Reqb_true in Eb. subst f. exists v, s'. split; [reflexivity|lra].
  - eexists _, _. split; [reflexivity|]. split.
    + rewrite Rplus_0_r. apply Rmult_le_pos; lra.
    + rewrite Rplus_0_r, Rminus_0_r. rewrite <- (Rmult_1_l f) at 2. apply Rmult_lt_compat_r; lra.
Qed.

Lemma t_init_ok {S : Type} (gf : S -> R * S) s : (forall s, unit_interval (fst (gf s))) -> exists g, t_init gf s = Some g /\ t_good g /\ List.length (t_seq g) = tauswortheSeqLen.
Proof.
  intros Hg. unfold t_init.
  match goal with |- context [loop tauswortheDigitsRandomized ?B ?I] =>
    destruct (loop_inv (fun d st => let '(seq, f, _) := st in List.length seq = tauswortheSeqLen /\ (0 < f)%R /\
      Forall (fun x => (0 <= x /\ (d = O -> x = 0) /\ (d <> O -> x < 2 - 2 * f))%R) seq /\ (d = O -> f = 1%R)) tauswortheDigitsRandomized B I) as ([[seq f] s'] & E & L & Hf & HF & _) end.
  - split; [apply repeat_length|]. split; [lra|]. split; [|reflexivity]. apply Forall_forall. intros x Hx. apply repeat_spec in Hx. subst x.
    split; [lra|]. split; [reflexivity|]. intros H. now elim H.
  - intros d [[seq f] s0] _ (L & Hf & HF & H1).
    assert (HFn : forall i, (i < List.length seq)%nat -> (0 <= nth i seq 0 /\ (d = O -> nth i seq 0 = 0) /\ (d <> O -> nth i seq 0 < 2 - 2 * f))%R).
    { intros i Hi. rewrite Forall_forall in HF. apply HF. now apply nth_In. }
    match goal with |- context [loop (List.length seq) ?B ?I] =>
      destruct (loop_inv (fun k st => List.length (fst st) = List.length seq /\ forall i, (i < List.length seq)%nat ->
         if (i <? k)%nat then (0 <= nth i (fst st) 0 < 2 - 2 * (f / 2))%R else nth i (fst st) 0%R = nth i seq 0%R) (List.length seq) B I) as ([seq' s1] & E & L' & H) end.
    + cbn [fst]. split; [reflexivity|]. intros i Hi. destruct (Nat.ltb_spec i 0); [lia|reflexivity].
    + intros k [t s1] Hk (Lt & Ht). cbn [fst] in *. destruct (uniform_zero gf f s1 Hg Hf) as (v & s2 & Ev & Hv). rewrite Ev.
      rewrite (rd_nth t k 0%R) by lia.
      destruct (wr_some t k (nth k t 0 + v)%R 0%R ltac:(lia)) as (t' & Ew & Lw & Hw). rewrite Ew.
      eexists. split; [reflexivity|]. cbn [fst]. split; [lia|]. intros i Hi. rewrite Hw.
      pose proof (Ht i Hi) as Hti. destruct (Nat.eqb_spec i k) as [->|Hne].
      * rewrite (proj2 (Nat.ltb_lt k (Datatypes.S k))) by lia. rewrite Nat.ltb_irrefl in Hti. rewrite Hti.
        destruct (HFn k Hk) as (P0 & P1 & P2). destruct (Nat.eq_dec d 0) as [Ed|Ed].
        -- rewrite (P1 Ed). specialize (H1 Ed). lra.
        -- specialize (P2 Ed). lra.
      * destruct (Nat.ltb_spec i k), (Nat.ltb_spec i (Datatypes.S k)); try lia; assumption.
    + rewrite E. eexists. split; [reflexivity|]. cbn [fst] in *. split; [lia|]. split; [lra|]. split; [|discriminate].
      apply Forall_forall. intros x Hx. apply (In_nth _ _ 0%R) in Hx. destruct Hx as (i & Hi & <-).
      specialize (H i ltac:(lia)). rewrite (proj2 (Nat.ltb_lt i (List.length seq))) in H by lia.
      split; [lra|]. split; [discriminate|]. intros _. lra.
  - rewrite E. eexists. split; [reflexivity|]. unfold t_good. cbn [t_seq t_leader t_first t_second]. rewrite map_length, L.
    split; [|reflexivity]. split; [|split; [|split]].
    + apply Forall_forall. intros x Hx. apply in_map_iff in Hx. destruct Hx as (y & <- & Hy). rewrite Forall_forall in HF.
      destruct (HF y Hy) as (P0 & _ & P2). specialize (P2 ltac:(discriminate)). unfold unit_interval.
      destruct (Rleb 1 y) eqn:Ey; [apply Rleb_true in Ey|apply Rleb_false in Ey]; lra.
    + apply Nat.ltb_lt. vm_compute. reflexivity.
    + apply Nat.ltb_lt. vm_compute. reflexivity.
    + apply Nat.ltb_lt. vm_compute. reflexivity.
Qed.

(** ** Ranges *)
Lemma uniform_range {S : Type} (next : S -> option (R * S)) low high s f s' : (low < high)%R -> next s = Some (f, s') -> unit_interval f ->
  exists v, uniform next low high s = Some (v, s') /\ (low <= v < high)%R.
Proof.
  intros Hlh E [F1 F2]. unfold uniform. destruct (Reqb low 0 && Reqb high 1) eqn:Eb.
  - apply andb_true_iff in Eb. destruct Eb as [E1 E2]. apply Reqb_true in E1, E2. subst. exists f. split; [assumption|lra].
  - rewrite E. eexists. split; [reflexivity|].
    assert (0 <= f * (high - low))%R by (apply Rmult_le_pos; lra).
    assert (f * (high - low) < 1 * (high - low))%R by (apply Rmult_lt_compat_r; lra). lra.
Qed.

Lemma uniformInt_range {S : Type} (next : S -> option (R * S)) low high s f s' : (low < high)%Z -> next s = Some (f, s') -> unit_interval f ->
  exists v, uniformInt next low high s = Some (v, s') /\ (low <= v < high)%Z.
Proof.
  intros Hlh E [F1 F2]. unfold uniformInt. rewrite E. eexists. split; [reflexivity|].
  set (x := (IZR (high - low) * f + IZR low)%R).
  assert (Hd : (0 < IZR (high - low))%R) by (apply (IZR_lt 0); lia).
  assert (X1 : (IZR low <= x)%R) by (unfold x; assert (0 <= IZR (high - low) * f)%R by (apply Rmult_le_pos; lra); lra).
  assert (X2 : (x < IZR high)%R).
  { unfold x. assert (IZR (high - low) * f < IZR (high - low) * 1)%R by (apply Rmult_lt_compat_l; lra). rewrite minus_IZR in *. lra. }
  destruct (base_Int_part x) as [P1 P2]. split.
  - assert (low < Int_part x + 1)%Z; [|lia]. apply lt_IZR. rewrite plus_IZR. lra.
  - apply lt_IZR. lra.
Qed.

Lemma uniformAt_draws {S : Type} (next : S -> option (R * S)) nextSeq low high target s vs s' :
  (forall target s vs s', draws next (List.length target) s = Some (vs, s') -> nextSeq target s = Some (vs, s')) ->
  draws next (List.length target) s = Some (vs, s') ->
  uniformAt nextSeq low high target s = draws (uniform next low high) (List.length target) s.
Proof.
  intros Hs Hd. unfold uniformAt. rewrite (Hs _ _ _ _ Hd). clear Hs. generalize dependent (List.length target). intros n.
  destruct (Reqb low 0 && Reqb high 1) eqn:Eb.
  - revert s vs s'. induction n as [|n IH]; intros s vs s' Hd; cbn in *.
    + now injection Hd as <- <-.
    + unfold uniform at 1. rewrite Eb. destruct (next s) as [[v s1]|]; [|discriminate].
      destruct (draws next n s1) as [[ws s2]|] eqn:E; [|discriminate]. injection Hd as <- <-. now rewrite <- (IH s1 ws s2).
  - revert s vs s'. induction n as [|n IH]; intros s vs s' Hd; cbn in *.
    + now injection Hd as <- <-.
    + unfold uniform at 1. rewrite Eb. destruct (next s) as [[v s1]|]; [|discriminate].
      destruct (draws next n s1) as [[ws s2]|] eqn:E; [|discriminate]. injection Hd as <- <-. now rewrite <- (IH s1 ws s2).
Qed.
