(** * C18: matrix products and transposes. *)
From Coq Require Import Lra.
From Verif Require Import GoBase GoBaseFacts RealBase LoopBase LoopFacts MatModel MatSpec.
Local Open Scope R_scope.

Lemma zeros_length n : List.length (zeros n) = n.
Proof. apply repeat_length. Qed.

Lemma zeros_nth n i : nth i (zeros n) 0 = 0.
Proof.
  destruct (Nat.lt_ge_cases i n); [|apply nth_overflow; rewrite zeros_length; lia].
  apply nth_error_nth. unfold zeros. apply nth_error_repeat. assumption.
Qed.

Lemma sumf_ext n f g : (forall i, (i < n)%nat -> f i = g i) -> sumf n f = sumf n g.
Proof. intros H. induction n as [|n IH]; [reflexivity|]. cbn. rewrite IH, H by (intros; try apply H; lia). reflexivity. Qed.

Lemma newMatrix_some vs w h : w <> O -> h <> O -> List.length vs = (h * w)%nat ->
  newMatrix vs w h = Some {| vals := vs; width := w; height := h |}.
Proof.
  intros. unfold newMatrix. destruct (Nat.eqb_spec w 0); [lia|]. destruct (Nat.eqb_spec h 0); [lia|].
  destruct (Nat.eqb_spec (w * h) (List.length vs)); [reflexivity|lia].
Qed.

(** An accumulating inner loop on one cell. *)
Lemma cell_accumulate (o : list R) c n (f : nat -> R) body :
  (c < List.length o)%nat ->
  (forall k o x, (k < n)%nat -> rd o c = Some x -> body k o = wr o c (x + f k)) ->
  exists o', loop n body o = Some o' /\ List.length o' = List.length o /\
    forall j, nth j o' 0 = if (j =? c)%nat then nth c o 0 + sumf n f else nth j o 0.
Proof.
  intros Hc Hb.
  destruct (loop_inv (fun k o' => List.length o' = List.length o /\
     forall j, nth j o' 0 = if (j =? c)%nat then nth c o 0 + sumf k f else nth j o 0) n body o) as (o' & E & H).
  - split; [reflexivity|]. intros j. cbn. destruct (Nat.eqb_spec j c); subst; lra.
  - intros k t Hk (Hl & Ht).
    rewrite (Hb k t (nth c t 0)) by (try assumption; apply rd_nth; lia).
    destruct (wr_some t c (nth c t 0 + f k) 0) as (t' & E & L & Ht'); [lia|].
    exists t'. split; [exact E|]. split; [lia|]. intros j. rewrite Ht', !Ht. cbn [sumf].
    rewrite Nat.eqb_refl. destruct (j =? c)%nat; lra.
  - exists o'. tauto.
Qed.

(** mat.go:60-81: correct when out's rows really start at i * m1.Width, i.e. one row, or a square second factor. *)
Lemma multAt_ok : forall m1 m2 out h p w, shaped m1 h p -> shaped m2 p w -> shaped out h w -> (h = 1 \/ p = w)%nat ->
  exists r, multAt m1 m2 out = Some r /\ is_product m1 m2 r h p w.
Proof.
  intros m1 m2 out h p w (H1 & W1 & L1 & N1 & N2) (H2 & W2 & L2 & _ & N4) (H3 & W3 & L3 & _ & N3) Hs.
  assert (Hst : forall i, (i < h)%nat -> (i * p = i * w)%nat).
  { intros i Hi. destruct Hs as [->| ->]; [|reflexivity]. replace i with 0%nat by lia. reflexivity. }
  unfold multAt. rewrite W1, H2, Nat.eqb_refl, H1, W2, L3. cbn [negb].
  destruct (loop_inv (fun i o => List.length o = (h * w)%nat /\
     forall a b, (a < h)%nat -> (b < w)%nat -> nth (a * w + b) o 0 =
        if (a <? i)%nat then sumf p (fun k => entry m1 a k * entry m2 k b) else 0) h
     (fun i o => loop w (fun j o => loop p (fun k o =>
          do a <- rd (vals m1) (i * p + k)%nat; do b <- rd (vals m2) (k * w + j)%nat; do c <- rd o (i * p + j)%nat;
          wr o (i * p + j)%nat (c + a * b)) o) o) (zeros (h * w))) as (o' & E & L & H).
  - split; [apply zeros_length|]. intros. apply zeros_nth.
  - intros i o Hi (Lo & Ho).
    destruct (loop_inv (fun j o => List.length o = (h * w)%nat /\
     forall a b, (a < h)%nat -> (b < w)%nat -> nth (a * w + b) o 0 =
        if (a <? i)%nat || ((a =? i)%nat && (b <? j)%nat) then sumf p (fun k => entry m1 a k * entry m2 k b) else 0) w
      (fun j o => loop p (fun k o =>
          do a <- rd (vals m1) (i * p + k)%nat; do b <- rd (vals m2) (k * w + j)%nat; do c <- rd o (i * p + j)%nat;
          wr o (i * p + j)%nat (c + a * b)) o) o) as (o' & E & L & H).
    + split; [assumption|]. intros a b Ha Hb. rewrite Ho by assumption.
      rewrite (proj2 (Nat.ltb_ge b 0)) by lia. rewrite andb_false_r, orb_false_r. reflexivity.
    + intros j t Hj (Lt & Ht). pose proof (idx_lt i j h w Hi Hj) as Hc.
      destruct (cell_accumulate t (i * p + j) p (fun k => entry m1 i k * entry m2 k j)
        (fun k o => do a <- rd (vals m1) (i * p + k)%nat; do b <- rd (vals m2) (k * w + j)%nat; do c <- rd o (i * p + j)%nat;
          wr o (i * p + j)%nat (c + a * b))) as (t' & E & L & H').
      * rewrite Hst by assumption. lia.
      * intros k o1 x Hk Hx. rewrite (rd_nth (vals m1) (i * p + k) 0) by (rewrite L1; apply idx_lt; lia).
        rewrite (rd_nth (vals m2) (k * w + j) 0) by (rewrite L2; apply idx_lt; lia).
        rewrite Hx. unfold entry. now rewrite W1, W2.
      * exists t'. split; [exact E|]. split; [lia|]. intros a b Ha Hb. rewrite H', Hst, idx_eqb by assumption.
        rewrite !Ht by assumption.
        destruct (Nat.eqb_spec a i); destruct (Nat.eqb_spec b j); subst; cbn [andb orb];
        rewrite ?Nat.ltb_irrefl, ?Nat.eqb_refl; cbn [andb orb].
        -- destruct (Nat.ltb_spec j (S j)); [lra|lia].
        -- destruct (Nat.ltb_spec b j), (Nat.ltb_spec b (S j)); try lia; reflexivity.
        -- rewrite orb_false_r. reflexivity.
        -- reflexivity.
    + exists o'. split; [exact E|]. split; [assumption|]. intros a b Ha Hb. rewrite H by assumption.
      rewrite (proj2 (Nat.ltb_lt b w)) by assumption. rewrite andb_true_r.
      destruct (Nat.ltb_spec a i), (Nat.eqb_spec a i), (Nat.ltb_spec a (S i)); try lia; reflexivity.
  - rewrite E. eexists. split; [reflexivity|]. split.
    + repeat split; cbn; lia || assumption.
    + intros i j Hi Hj. unfold entry at 1. cbn [vals width]. rewrite W3, H by assumption.
      rewrite (proj2 (Nat.ltb_lt i h)) by assumption. reflexivity.
Qed.

(** ** Matrix-vector products *)
Lemma multVec_ok : forall m v out h w, shaped m h w -> List.length v = w -> List.length out = h ->
  exists r, multVec m v out = Some r /\ List.length r = h /\
    forall i, (i < h)%nat -> vec r i = sumf w (fun k => entry m i k * vec v k).
Proof.
  intros m v out h w (H1 & W1 & L1 & N1 & N2) Lv Lo. unfold multVec.
  rewrite H1, W1, Lv, Lo, !Nat.eqb_refl. cbn [negb orb].
  match goal with |- context [loop h ?B ?S] => destruct (loop_inv (fun j s => snd s = (j * w)%nat /\ List.length (fst s) = h /\
     forall i, (i < h)%nat -> vec (fst s) i = if (i <? j)%nat then sumf w (fun k => entry m i k * vec v k) else 0) h B S) as ([o' q] & E & Q & L & H) end.
  - cbn [fst snd]. split; [reflexivity|]. split; [apply zeros_length|]. intros. unfold vec. apply zeros_nth.
  - intros j [o q] Hj (Q & Lo' & Ho). cbn [fst snd] in *. subst q.
    destruct (cell_accumulate o j w (fun k => entry m j k * vec v k)
      (fun i out => do a <- rd (vals m) (j * w + i)%nat; do b <- rd v i; do c <- rd out j; wr out j (c + a * b))) as (t' & E & L & H').
    + lia.
    + intros k o1 x Hk Hx. rewrite (rd_nth (vals m) (j * w + k) 0) by (rewrite L1; apply idx_lt; lia).
      rewrite (rd_nth v k 0) by lia. rewrite Hx. unfold entry, vec. now rewrite W1.
    + rewrite E. eexists. split; [reflexivity|]. cbn [fst snd]. split; [lia|]. split; [lia|].
      intros i Hi. unfold vec. rewrite H'. specialize (Ho i Hi) as Hoi. unfold vec in Hoi.
      destruct (Nat.eqb_spec i j); subst.
      * rewrite Nat.ltb_irrefl in Hoi. destruct (Nat.ltb_spec j (S j)); [|lia]. rewrite Hoi. rewrite Rplus_0_l. reflexivity.
      * rewrite Hoi. destruct (Nat.ltb_spec i j), (Nat.ltb_spec i (S j)); try lia; reflexivity.
  - rewrite E. exists o'. cbn [fst] in *. split; [reflexivity|]. split; [assumption|].
    intros i Hi. rewrite H by assumption. now rewrite (proj2 (Nat.ltb_lt i h)).
Qed.

Lemma sum_loop n (f : nat -> R) body acc :
  (forall k x, (k < n)%nat -> body k x = Some (x + f k)) -> loop n body acc = Some (acc + sumf n f).
Proof.
  intros H. induction n as [|n IH]; cbn; [now rewrite Rplus_0_r|].
  rewrite IH by (intros; apply H; lia). rewrite H by lia. f_equal. lra.
Qed.

Lemma vecMult_ok : forall m v out h w, shaped m h w -> List.length v = h -> List.length out = w ->
  exists r, vecMult v m out = Some r /\ List.length r = w /\
    forall j, (j < w)%nat -> vec r j = sumf h (fun k => vec v k * entry m k j).
Proof.
  intros m v out h w (H1 & W1 & L1 & N1 & N2) Lv Lo. unfold vecMult.
  rewrite H1, W1, Lv, Lo, !Nat.eqb_refl. cbn [negb orb].
  match goal with |- context [loop w ?B ?S] => destruct (loop_inv (fun j s => List.length s = w /\
     forall i, (i < j)%nat -> vec s i = sumf h (fun k => vec v k * entry m k i)) w B S) as (o' & E & L & H) end.
  - split; [apply zeros_length|]. intros; lia.
  - intros j o Hj (Lo' & Ho).
    rewrite (sum_loop h (fun k => vec v k * entry m k j)).
    + rewrite Rplus_0_l. destruct (wr_some o j (sumf h (fun k => vec v k * entry m k j)) 0) as (t' & E & L & H'); [lia|].
      exists t'. split; [exact E|]. split; [lia|]. intros i Hi. unfold vec at 1. rewrite H'.
      destruct (Nat.eqb_spec i j); [subst; reflexivity|]. apply Ho. lia.
    + intros k x Hk. rewrite (rd_nth v k 0) by lia. rewrite (rd_nth (vals m) (j + w * k) 0).
      * unfold vec, entry. rewrite W1. do 3 f_equal. f_equal. lia.
      * rewrite L1. pose proof (idx_lt k j h w Hk Hj). lia.
  - rewrite E. exists o'. split; [reflexivity|]. split; [assumption|]. exact H.
Qed.

(** ** Transposition *)
Section Transpose.
Variables (m : list R) (w h : nat).
Hypothesis Lm : List.length m = (h * w)%nat.

(** The block of columns [x0, x0+xw) and rows [y0, y0+yw) of m has been transposed into o', nothing else changed. *)
Definition blockT (o o' : list R) (x0 xw y0 yw : nat) : Prop :=
  List.length o' = List.length o /\
  forall x y, (x < w)%nat -> (y < h)%nat -> nth (x * h + y) o' 0 =
    if (x0 <=? x)%nat && (x <? x0 + xw)%nat && (y0 <=? y)%nat && (y <? y0 + yw)%nat then nth (y * w + x) m 0 else nth (x * h + y) o 0.

Lemma baseTranspose_ok o x0 xw y0 yw : List.length o = (w * h)%nat -> (x0 + xw <= w)%nat -> (y0 + yw <= h)%nat ->
  exists o', baseTranspose m o w h x0 y0 xw yw y0 x0 = Some o' /\ blockT o o' x0 xw y0 yw.
Proof.
  intros Lo Hx Hy. unfold baseTranspose.
  match goal with |- context [loop yw ?B ?S] => destruct (loop_inv (fun y o' => blockT o o' x0 xw y0 y) yw B S) as (o' & E & H) end.
  - split; [reflexivity|]. intros x y _ _. destruct (Nat.leb_spec y0 y), (Nat.ltb_spec y (y0 + 0)); rewrite ?andb_false_r; try lia; reflexivity.
  - intros y t Hyy (Lt & Ht).
    match goal with |- context [loop xw ?B ?S] => destruct (loop_inv (fun x o' => List.length o' = (w * h)%nat /\
      forall a b, (a < w)%nat -> (b < h)%nat -> nth (a * h + b) o' 0 =
       if (x0 <=? a)%nat && (a <? x0 + x)%nat && (b =? y0 + y)%nat then nth (b * w + a) m 0 else nth (a * h + b) t 0) xw B S) as (o' & E & L & H) end.
    + split; [lia|]. intros a b _ _. destruct (Nat.leb_spec x0 a), (Nat.ltb_spec a (x0 + 0)); cbn [andb]; try lia; reflexivity.
    + intros x s Hxx (Ls & Hs). rewrite (rd_nth m ((y0 + y) * w + (x0 + x)) 0) by (rewrite Lm; apply idx_lt; lia).
      destruct (wr_some s ((x0 + x) * h + (y0 + y)) (nth ((y0 + y) * w + (x0 + x)) m 0) 0) as (s' & E & L & H').
      { rewrite Ls. apply idx_lt; lia. }
      exists s'. split; [exact E|]. split; [lia|]. intros a b Ha Hb. rewrite H', idx_eqb by lia. rewrite Hs by assumption.
      destruct (Nat.eqb_spec a (x0 + x)), (Nat.eqb_spec b (y0 + y)); subst; cbn [andb]; rewrite ?andb_true_r, ?andb_false_r; try reflexivity.
      * rewrite (proj2 (Nat.leb_le x0 (x0 + x))), (proj2 (Nat.ltb_lt (x0 + x) (x0 + S x))) by lia. reflexivity.
      * destruct (Nat.leb_spec x0 a), (Nat.ltb_spec a (x0 + x)), (Nat.ltb_spec a (x0 + S x)); try lia; reflexivity.
    + exists o'. split; [exact E|]. split; [lia|]. intros a b Ha Hb. rewrite H, Ht by assumption.
      destruct (Nat.leb_spec x0 a), (Nat.ltb_spec a (x0 + xw)), (Nat.leb_spec y0 b), (Nat.ltb_spec b (y0 + y)), (Nat.ltb_spec b (y0 + S y)), (Nat.eqb_spec b (y0 + y));
        cbn [andb]; try lia; reflexivity.
  - exists o'. auto.
Qed.

Lemma recTranspose_ok B fuel : (1 <= B)%nat -> forall o x0 xw y0 yw, List.length o = (w * h)%nat -> (x0 + xw <= w)%nat -> (y0 + yw <= h)%nat ->
  (xw + yw < fuel)%nat ->
  exists o', recTranspose B fuel m o w h x0 y0 xw yw y0 x0 = Some o' /\ blockT o o' x0 xw y0 yw.
Proof.
  intros HB. induction fuel as [|fuel IH]; intros o x0 xw y0 yw Lo Hx Hy Hf; [lia|].
  cbn [recTranspose].
  destruct ((xw <=? B)%nat && (yw <=? B)%nat) eqn:Eb; [now apply baseTranspose_ok|].
  assert (B < xw \/ B < yw)%nat as Hbig.
  { apply andb_false_iff in Eb. destruct Eb as [Eb|Eb]; apply Nat.leb_gt in Eb; lia. }
  destruct (Nat.ltb_spec yw xw).
  - pose proof (Nat.div_lt xw 2 ltac:(lia) ltac:(lia)). assert (1 <= xw / 2)%nat by (apply (Nat.div_le_lower_bound xw 2 1); lia).
    destruct (IH o x0 (xw / 2)%nat y0 yw) as (o1 & E1 & L1 & HA); try lia. rewrite E1.
    destruct (IH o1 (x0 + xw / 2)%nat (xw - xw / 2)%nat y0 yw) as (o2 & E2 & L2 & HB2); try lia.
    exists o2. split; [exact E2|]. split; [lia|]. intros x y Hx' Hy'. rewrite HB2, HA by assumption.
    destruct (Nat.leb_spec (x0 + xw / 2) x), (Nat.ltb_spec x (x0 + xw / 2 + (xw - xw / 2))), (Nat.leb_spec x0 x), (Nat.ltb_spec x (x0 + xw / 2)), (Nat.ltb_spec x (x0 + xw));
      cbn [andb]; try lia; try reflexivity; destruct ((y0 <=? y)%nat && (y <? y0 + yw)%nat); reflexivity.
  - pose proof (Nat.div_lt yw 2 ltac:(lia) ltac:(lia)). assert (1 <= yw / 2)%nat by (apply (Nat.div_le_lower_bound yw 2 1); lia).
    destruct (IH o x0 xw y0 (yw / 2)%nat) as (o1 & E1 & L1 & HA); try lia. rewrite E1.
    destruct (IH o1 x0 xw (y0 + yw / 2)%nat (yw - yw / 2)%nat) as (o2 & E2 & L2 & HB2); try lia.
    exists o2. split; [exact E2|]. split; [lia|]. intros x y Hx' Hy'. rewrite HB2, HA by assumption.
    destruct (x0 <=? x)%nat, (x <? x0 + xw)%nat; cbn [andb]; try reflexivity.
    destruct (Nat.leb_spec (y0 + yw / 2) y), (Nat.ltb_spec y (y0 + yw / 2 + (yw - yw / 2))), (Nat.leb_spec y0 y), (Nat.ltb_spec y (y0 + yw / 2)), (Nat.ltb_spec y (y0 + yw));
      cbn [andb]; try lia; reflexivity.
Qed.
End Transpose.

Lemma transpose_ok : forall B m h w, (1 <= B)%nat -> shaped m h w -> exists r, transpose B m = Some r /\ is_transpose m r h w.
Proof.
  intros B m h w HB (H1 & W1 & L1 & N1 & N2). unfold transpose. rewrite H1, W1.
  rewrite newMatrix_some by (try assumption; rewrite zeros_length; lia).
  unfold transposeAt. cbn [vals width height]. rewrite W1, H1.
  destruct (recTranspose_ok (vals m) w h L1 B (S (w + h)) HB (zeros (h * w)) 0 w 0 h) as (o' & E & L & H); try lia.
  { rewrite zeros_length. lia. }
  rewrite E. eexists. split; [reflexivity|]. rewrite zeros_length in L. split.
  - repeat split; cbn; lia.
  - intros i j Hi Hj. unfold entry. cbn [vals width]. rewrite H by assumption.
    rewrite (proj2 (Nat.ltb_lt j (0 + w))), (proj2 (Nat.ltb_lt i (0 + h))) by lia. cbn [Nat.leb andb]. now rewrite W1.
Qed.

(** ** The defect of Mult on non-square second factors: outIdx uses m1.Width as the row stride of out. *)
Lemma loop_length {A} n (body : nat -> list A -> option (list A)) s s' :
  (forall i s s', body i s = Some s' -> List.length s' = List.length s) -> loop n body s = Some s' -> List.length s' = List.length s.
Proof.
  intros Hb. revert s'. induction n as [|n IH]; intros s' E; cbn in E; [now injection E as <-|].
  destruct (loop n body s) as [t|] eqn:Et; [|discriminate]. rewrite (Hb _ _ _ E). now apply IH.
Qed.

Lemma loop_fails_at {A} n k (body : nat -> list A -> option (list A)) s L :
  (forall i s s', body i s = Some s' -> List.length s' = List.length s) -> List.length s = L -> (k < n)%nat ->
  (forall t, List.length t = L -> body k t = None) -> loop n body s = None.
Proof.
  intros Hb Hs Hk Hf. apply (loop_none n (S k)); [lia|]. cbn. destruct (loop k body s) as [t|] eqn:Et; [|reflexivity].
  apply Hf. rewrite <- Hs. now apply (loop_length k body).
Qed.

Lemma mult_wide_panics : forall m1 m2 h p w, shaped m1 h p -> shaped m2 p w -> (w < p)%nat -> (2 <= h)%nat -> mult m1 m2 = None.
Proof.
  intros m1 m2 h p w (H1 & W1 & L1 & N1 & N2) (H2 & W2 & L2 & _ & N3) Hw Hh.
  unfold mult. rewrite newMatrix_some by (rewrite ?zeros_length; lia). unfold multAt. cbn [vals width height].
  rewrite W1, H2, Nat.eqb_refl, zeros_length, H1, W2. cbn [negb].
  assert (Hbody : forall i j k (s s' : list R), 
     (do a <- rd (vals m1) (i * p + k)%nat; do b <- rd (vals m2) (k * w + j)%nat; do c <- rd s (i * p + j)%nat; wr s (i * p + j)%nat (c + a * b)) = Some s' ->
     List.length s' = List.length s).
  { intros i j k s s'. destruct (rd (vals m1) _); [|discriminate]. destruct (rd (vals m2) _); [|discriminate]. destruct (rd s _); [|discriminate].
    intros E. exact (upd_length _ _ _ _ E). }
  match goal with |- context [loop h ?B ?S] => assert (HN : loop h B S = None); [|now rewrite HN] end.
  apply (loop_fails_at h (h - 1) _ _ (h * w)%nat); [|apply zeros_length|lia|].
  { intros i s s'. apply loop_length. intros j t t'. apply loop_length. intros k u u'. apply Hbody. }
  intros t Lt. apply (loop_fails_at w (w - 1) _ _ (h * w)%nat); [|assumption|lia|].
  { intros j s s'. apply loop_length. intros k u u'. apply Hbody. }
  intros t' Lt'. apply (loop_fails_at p 0 _ _ (h * w)%nat); [|assumption|lia|].
  { intros k u u'. apply Hbody. }
  intros u Lu. destruct (rd (vals m1) _); [|reflexivity]. destruct (rd (vals m2) _); [|reflexivity].
  rewrite rd_none; [reflexivity|]. rewrite Lu.
  assert ((h - 1) * (w + 1) <= (h - 1) * p)%nat by (apply Nat.mul_le_mono_l; lia).
  replace (h * w)%nat with ((h - 1) * w + w)%nat by (replace h with (h - 1 + 1)%nat at 2 by lia; lia). lia.
Qed.

Lemma loop_pres {S : Type} (P : S -> Prop) n body (s s' : S) :
  (forall i t t', (i < n)%nat -> P t -> body i t = Some t' -> P t') -> P s -> loop n body s = Some s' -> P s'.
Proof.
  revert s'. induction n as [|n IH]; intros s' Hb Hs E; cbn in E; [now injection E as <-|].
  destruct (loop n body s) as [t|] eqn:Et; [|discriminate]. apply (Hb n t s'); [lia| |assumption].
  apply IH; [|assumption|first [exact Et|reflexivity]]. intros i u u' Hi. apply (Hb i). lia.
Qed.

(** When m2 is wider than m1, the last cell of the output is never written. *)
Lemma mult_narrow_last : forall m1 m2 r h p w, shaped m1 h p -> shaped m2 p w -> (p < w)%nat -> (2 <= h)%nat ->
  mult m1 m2 = Some r -> entry r (h - 1) (w - 1) = 0.
Proof.
  intros m1 m2 r h p w (H1 & W1 & L1 & N1 & N2) (H2 & W2 & L2 & _ & N3) Hw Hh.
  unfold mult. rewrite newMatrix_some by (rewrite ?zeros_length; lia). unfold multAt. cbn [vals width height].
  rewrite W1, H2, Nat.eqb_refl, zeros_length, H1, W2. cbn [negb].
  match goal with |- context [loop h ?B ?S] => destruct (loop h B S) as [o|] eqn:Eo; [|discriminate] end.
  intros [= <-]. unfold entry. cbn [vals width].
  revert Eo. apply (loop_pres (fun l : list R => nth ((h - 1) * w + (w - 1)) l 0 = 0)); [|apply zeros_nth].
  intros i t t' Hi Ht. apply (loop_pres (fun l : list R => nth ((h - 1) * w + (w - 1)) l 0 = 0)); [|assumption].
  intros j u u' Hj Hu. apply (loop_pres (fun l : list R => nth ((h - 1) * w + (w - 1)) l 0 = 0)); [|assumption].
  intros k v v' Hk Hv. cbv beta.
  destruct (rd (vals m1) _); [|discriminate]. destruct (rd (vals m2) _); [|discriminate]. destruct (rd v _); [|discriminate].
  intros E. destruct (wr_inv _ _ _ _ 0 E) as (_ & _ & Hn). rewrite Hn.
  destruct (Nat.eqb_spec ((h - 1) * w + (w - 1)) (i * p + j)) as [Eq|]; [exfalso|assumption].
  assert (i * p <= (h - 1) * p)%nat by (apply Nat.mul_le_mono_r; lia).
  assert ((h - 1) * (p + 1) <= (h - 1) * w)%nat by (apply Nat.mul_le_mono_l; lia). lia.
Qed.
