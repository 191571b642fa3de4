(** * Proofs about the interleaving of format columns. *)
From Coq Require Import Lia List Sorting.Sorted.
From Verif Require Import GoBase GoBaseFacts LoopBase LoopFacts ListFacts EnvModel EnvSpec.
Import List ListNotations.
Local Open Scope nat_scope.

Lemma loop_sound {S : Type} (P : nat -> S -> Prop) n body s s' :
  P 0 s -> (forall i t t', i < n -> P i t -> body i t = Some t' -> P (Datatypes.S i) t') ->
  loop n body s = Some s' -> P n s'.
Proof.
  intros H0 Hs. revert s'. induction n as [|n IH]; intros s' E; cbn in E.
  - injection E as <-. exact H0.
  - destruct (loop n body s) as [t|] eqn:Et; [|discriminate]. apply (Hs n t); [lia| |exact E].
    apply IH; [|reflexivity]. intros; eapply Hs; eauto.
Qed.

(** Product of the lengths of the first [j] columns that are not aligned. *)
Fixpoint pre (cols : list (list arg)) (al : list bool) (j : nat) : nat :=
  match j with
  | O => 1
  | S j' => pre cols al j' * (if nth j' al true then 1 else length (nth j' cols []))
  end.

Lemma pre_cons c cols a al j : pre (c :: cols) (a :: al) (S j) = (if a then 1 else length c) * pre cols al j.
Proof.
  induction j as [|j IH]; [cbn; lia|].
  change (pre (c :: cols) (a :: al) (S (S j))) with
    (pre (c :: cols) (a :: al) (S j) * (if nth j al true then 1 else length (nth j cols []))).
  rewrite IH. cbn [pre]. lia.
Qed.

Lemma pre_all cols al : length al = length cols -> pre cols al (length cols) = combinations cols al.
Proof.
  revert al. induction cols as [|c cols IH]; intros [|a al] H; try discriminate H; [reflexivity|].
  cbn [length]. rewrite pre_cons, IH by (cbn in H; lia). reflexivity.
Qed.

Lemma pre_0 cols al j : pre cols al j = 0 -> forall k, j <= k -> pre cols al k = 0.
Proof. intros H k L. induction L as [|k L IH]; [exact H|]. cbn [pre]. rewrite IH. reflexivity. Qed.

(** ** Heights *)
Section H.
Variable cols : list (list arg).
Variable al : list bool.
Hypothesis L : length al = length cols.

Definition hinv (i : nat) (st : option nat * nat) : Prop :=
  snd st = pre cols al i /\
  match fst st with
  | None => forall j, j < i -> nth j al true = false
  | Some k => (exists j, j < i /\ nth j al true = true) /\
              forall j, j < i -> nth j al true = true -> length (nth j cols []) = k
  end.

Lemma heights_sound o p : heights cols al = Some (o, p) -> hinv (length cols) (o, p).
Proof.
  unfold heights. apply (loop_sound hinv).
  - split; [reflexivity|]. cbn. intros; lia.
  - intros i [sn ns] t' Hi [H1 H2]. cbn [fst snd] in *.
    rewrite (rd_nth al i true) by lia. rewrite (rd_nth cols i []) by lia.
    destruct (nth i al true) eqn:Ea.
    + destruct sn as [k|].
      * destruct (k =? length (nth i cols [])) eqn:E; [|discriminate]. apply Nat.eqb_eq in E. intros [= <-].
        split; cbn [fst snd pre]; [rewrite Ea; lia|]. destruct H2 as [(j & Hj & Hj') H2].
        split; [exists j; split; [lia|exact Hj']|]. intros j' Hj'' Ht. destruct (Nat.eq_dec j' i) as [->|]; [congruence|]. apply H2; [lia|exact Ht].
      * intros [= <-]. split; cbn [fst snd pre]; [rewrite Ea; lia|]. split; [exists i; split; [lia|exact Ea]|].
        intros j' Hj'' Ht. destruct (Nat.eq_dec j' i) as [->|]; [congruence|]. rewrite H2 in Ht by lia. discriminate.
    + intros [= <-]. split; cbn [fst snd pre]; [rewrite Ea; lia|]. destruct sn as [k|].
      * destruct H2 as [(j & Hj & Hj') H2]. split; [exists j; split; [lia|exact Hj']|].
        intros j' Hj'' Ht. destruct (Nat.eq_dec j' i) as [->|]; [congruence|]. apply H2; [lia|exact Ht].
      * intros j Hj. destruct (Nat.eq_dec j i) as [->|]; [exact Ea|]. apply H2. lia.
Qed.

Lemma heights_complete k : (forall j, j < length cols -> nth j al true = true -> length (nth j cols []) = k) ->
  exists o p, heights cols al = Some (o, p).
Proof.
  intros Hk. unfold heights.
  destruct (loop_inv (fun i (st : option nat * nat) => match fst st with None => True | Some k' => k' = k end) (length cols)
    (fun i st => let '(snaps, nonSnaps) := st in
    do a <- rd al i;
    do c <- rd cols i;
    if a then
      match snaps with
      | None => Some (Some (List.length c), nonSnaps)
      | Some k => if k =? List.length c then Some st else None
      end
    else Some (snaps, nonSnaps * List.length c)) (None, 1)) as ((o & p) & E & _).
  - exact I.
  - intros i [sn ns] Hi H. cbn [fst] in H. rewrite (rd_nth al i true) by lia. rewrite (rd_nth cols i []) by lia.
    destruct (nth i al true) eqn:Ea.
    + specialize (Hk i Hi Ea). destruct sn as [k'|].
      * subst k'. rewrite Hk, Nat.eqb_refl. eexists; split; [reflexivity|reflexivity].
      * eexists; split; [reflexivity|exact Hk].
    + eexists; split; [reflexivity|exact H].
  - exists o, p. exact E.
Qed.
End H.

(** ** Rows *)

Lemma upd_mid' {A} (l r : list A) a v : upd (l ++ a :: r) (length l) v = Some (l ++ v :: r).
Proof. induction l as [|b l IH]; [reflexivity|]. cbn [app length upd]. now rewrite IH. Qed.

Lemma upd_at {A} (l r : list A) a v i : length l = i -> upd (l ++ a :: r) i v = Some (l ++ v :: r).
Proof. intros <-. apply upd_mid'. Qed.

Lemma col_loop (m col : nat) (f g : nat -> list arg) (w : nat -> option arg) (w' : nat -> arg) :
  (forall r, r < m -> w r = Some (w' r)) ->
  (forall r, r < m -> wr (f r) col (w' r) = Some (g r)) ->
  loop m (fun row rs => do v <- w row; set_cell rs row col v) (map f (seq 0 m)) = Some (map g (seq 0 m)).
Proof.
  intros Hw Hg.
  destruct (loop_inv (fun i rs => rs = map g (seq 0 i) ++ map f (seq i (m - i))) m
    (fun row rs => do v <- w row; set_cell rs row col v) (map f (seq 0 m))) as (s' & E & H).
  - rewrite Nat.sub_0_r. reflexivity.
  - intros i t Hi ->. rewrite Hw by exact Hi.
    assert (Hq : map f (seq i (m - i)) = f i :: map f (seq (S i) (m - S i))).
    { replace (m - i) with (S (m - S i)) by lia. reflexivity. }
    rewrite Hq; clear Hq.
    assert (Ln : length (map g (seq 0 i)) = i) by (now rewrite map_length, seq_length).
    unfold set_cell, rd. rewrite nth_error_app2 by lia. rewrite Ln, Nat.sub_diag. cbn [nth_error].
    rewrite Hg by exact Hi. unfold wr. rewrite (upd_at _ _ _ _ i Ln).
    eexists; split; [reflexivity|]. rewrite seq_S, map_app, <- app_assoc. reflexivity.
  - rewrite E, H, Nat.sub_diag. cbn. now rewrite app_nil_r.
Qed.

Section Rows.
Variable cols : list (list arg).
Variable al : list bool.
Hypothesis L : length al = length cols.
Variable s : nat.
Hypothesis Hs : forall j, j < length cols -> nth j al true = true -> s < length (nth j cols []).

Definition cell (r j : nat) : arg :=
  let c := nth j cols [] in
  if nth j al true then nth s c ANil else nth ((r / pre cols al j) mod (length c)) c ANil.

Lemma snap_rows_ok :
  snap_rows cols al (pre cols al (length cols)) s =
  Some (map (fun r => map (cell r) (seq 0 (length cols))) (seq 0 (pre cols al (length cols)))).
Proof.
  unfold snap_rows. set (n := length cols). set (m := pre cols al n).
  set (part := fun k r => map (cell r) (seq 0 k) ++ repeat ANil (n - k)).
  assert (Hpart : forall k r, k < n -> wr (part k r) k (cell r k) = Some (part (S k) r)).
  { intros k r Hk. unfold part. replace (n - k) with (S (n - S k)) by lia. cbn [repeat].
    assert (Ln : length (map (cell r) (seq 0 k)) = k) by (now rewrite map_length, seq_length).
    unfold wr. rewrite (upd_at _ _ _ _ k Ln). rewrite seq_S, map_app, <- app_assoc. reflexivity. }
  match goal with |- context [loop n ?b ?s0] => 
  destruct (loop_inv (fun k (st : list (list arg) * nat * nat) => let '(rows, d, md) := st in
       rows = map (part k) (seq 0 m) /\ d * md = pre cols al k) n b s0) as (st & E & Hst) end.
  - split; [|reflexivity]. unfold part. cbn [seq map app]. rewrite Nat.sub_0_r.
    rewrite <- (seq_length m 0) at 1. generalize (seq 0 m). intros l. induction l as [|x l IH]; [reflexivity|]. cbn. now rewrite IH.
  - intros k [[rows d] md] Hk [-> Hd]. rewrite map_length, seq_length.
    rewrite (rd_nth al k true) by (fold n in L; lia). rewrite (rd_nth cols k []) by exact Hk.
    destruct (nth k al true) eqn:Ea.
    + pose proof (Hs k Hk Ea) as Hsk.
      rewrite (col_loop m k (part k) (part (S k)) (fun _ => rd (nth k cols []) s) (fun r => cell r k)).
      * eexists; split; [reflexivity|]. split; [reflexivity|]. cbn [pre]. rewrite Ea. lia.
      * intros r Hr. rewrite (rd_nth _ s ANil) by exact Hsk. unfold cell. rewrite Ea. reflexivity.
      * intros r Hr. apply Hpart. exact Hk.
    + cbn zeta. rewrite Hd.
      rewrite (loop_ext m _ (fun row rs => do v <- (do q <- godiv row (pre cols al k); do k0 <- gomod q (length (nth k cols [])); rd (nth k cols []) k0); set_cell rs row k v)).
      2:{ intros i t Hi. destruct (godiv i (pre cols al k)); [|reflexivity]. destruct (gomod n0 (length (nth k cols []))); reflexivity. }
      rewrite (col_loop m k (part k) (part (S k)) (fun row => do q <- godiv row (pre cols al k); do k0 <- gomod q (length (nth k cols [])); rd (nth k cols []) k0) (fun r => cell r k)).
      * eexists; split; [reflexivity|]. split; [reflexivity|]. cbn [pre]. rewrite Ea. lia.
      * intros r Hr.
        assert (P1 : pre cols al (S k) <> 0) by (intros Q; pose proof (pre_0 cols al (S k) Q n); subst m; lia).
        cbn [pre] in P1. rewrite Ea in P1.
        unfold godiv, gomod. destruct (Nat.eqb_spec (pre cols al k) 0) as [Q|_]; [rewrite Q in P1; lia|].
        destruct (Nat.eqb_spec (length (nth k cols [])) 0) as [Q|Q]; [rewrite Q in P1; lia|].
        rewrite (rd_nth _ _ ANil) by (apply Nat.mod_upper_bound; exact Q). unfold cell. rewrite Ea. reflexivity.
      * intros r Hr. apply Hpart. exact Hk.
  - rewrite E. destruct st as [[rows d] md]. destruct Hst as [-> _]. f_equal. apply map_ext. intros r. unfold part.
    rewrite Nat.sub_diag. cbn. now rewrite app_nil_r.
Qed.
End Rows.

(** The rows are the combinations in the specification's order. *)
Lemma nth_error_flat_map_map {A B} (f : A -> B -> A) (c : list B) (l : list A) r :
  nth_error (flat_map (fun x => map (f x) c) l) r =
  if length c =? 0 then None else
  match nth_error l (r / length c), nth_error c (r mod length c) with
  | Some x, Some v => Some (f x v) | _, _ => None end.
Proof.
  destruct (Nat.eqb_spec (length c) 0) as [H|H].
  - destruct c; [|discriminate]. replace (flat_map (fun x => map (f x) []) l) with (@nil A) by (induction l; auto). now destruct r.
  - revert r. induction l as [|x l IH]; intros r; cbn [flat_map].
    + destruct r; destruct (_ / _); reflexivity.
    + destruct (Nat.lt_ge_cases r (length c)) as [Hr|Hr].
      * rewrite nth_error_app1 by (now rewrite map_length). rewrite Nat.div_small, Nat.mod_small by exact Hr.
        cbn [nth_error]. rewrite nth_error_map. reflexivity.
      * rewrite nth_error_app2 by (now rewrite map_length). rewrite map_length, IH.
        assert (E1 : r / length c = S ((r - length c) / length c)).
        { rewrite <- Nat.add_1_r, <- Nat.div_add by exact H. f_equal. lia. }
        assert (E2 : r mod length c = (r - length c) mod length c).
        { rewrite <- (Nat.mod_add (r - length c) 1) by exact H. f_equal. lia. }
        rewrite E1, E2. reflexivity.
Qed.

Lemma combos_length cols al s : length al = length cols -> length (combos cols al s) = combinations cols al.
Proof.
  revert al. induction cols as [|c cols IH]; intros [|a al] H; try discriminate H; [reflexivity|].
  cbn [combos combinations]. destruct a.
  - rewrite map_length, IH by (cbn in H; lia). lia.
  - rewrite <- IH by (cbn in H; lia). generalize (combos cols al s). intros l.
    induction l as [|x l IHl]; [cbn; lia|]. cbn [flat_map]. rewrite app_length, map_length, IHl. cbn [length]. lia.
Qed.

Lemma combos_nth cols al s r : length al = length cols -> r < combinations cols al ->
  nth_error (combos cols al s) r = Some (map (cell cols al s r) (seq 0 (length cols))).
Proof.
  revert al r. induction cols as [|c cols IH]; intros [|a al] r H Hr; try discriminate H.
  - cbn in Hr. assert (r = 0) by lia. subst. reflexivity.
  - cbn [combos combinations length seq map] in *.
    assert (Hc : cell (c :: cols) (a :: al) s r 0 = if a then nth s c ANil else nth (r mod length c) c ANil).
    { unfold cell. cbn [nth pre]. now rewrite Nat.div_1_r. }
    assert (HS : forall r' , (if a then r' = r else r' = r / length c /\ length c <> 0) ->
       map (cell (c :: cols) (a :: al) s r) (seq 1 (length cols)) = map (cell cols al s r') (seq 0 (length cols))).
    { intros r' Hr'. rewrite <- seq_shift, map_map. apply map_ext. intros j. unfold cell.
      rewrite pre_cons. cbn [nth]. destruct (nth j al true); [reflexivity|]. destruct a.
      - subst r'. now rewrite Nat.mul_1_l.
      - destruct Hr' as [-> Hn]. destruct (Nat.eq_dec (pre cols al j) 0) as [E0|E0].
        + rewrite E0, Nat.mul_0_r. reflexivity.
        + rewrite Nat.div_div by assumption. reflexivity. }
    destruct a.
    + rewrite nth_error_map, (IH al r) by (cbn in H; lia). cbn [option_map].
      rewrite Hc, (HS r eq_refl). reflexivity.
    + assert (Hn : length c <> 0) by (intros Q; rewrite Q in Hr; lia).
      rewrite (nth_error_flat_map_map (fun rest v => v :: rest)). destruct (Nat.eqb_spec (length c) 0); [contradiction|].
      rewrite (IH al (r / length c)); [|cbn in H; lia|apply Nat.div_lt_upper_bound; lia].
      rewrite (nth_error_nth' c ANil) by (apply Nat.mod_upper_bound; exact Hn).
      rewrite Hc, (HS (r / length c)) by (split; [reflexivity|exact Hn]). reflexivity.
Qed.

Lemma rows_are_combos cols al s : length al = length cols ->
  (forall j, j < length cols -> nth j al true = true -> s < length (nth j cols [])) ->
  snap_rows cols al (pre cols al (length cols)) s = Some (combos cols al s).
Proof.
  intros H Hs. rewrite (snap_rows_ok cols al H s Hs). f_equal. apply nth_error_ext. intros r.
  rewrite nth_error_map, pre_all by exact H.
  destruct (Nat.lt_ge_cases r (combinations cols al)) as [Hr|Hr].
  - rewrite combos_nth by assumption. rewrite (nth_error_nth' _ 0) by (now rewrite seq_length). rewrite seq_nth by exact Hr. reflexivity.
  - rewrite (proj2 (nth_error_None _ _)) by (now rewrite seq_length). symmetry. apply nth_error_None. rewrite combos_length; assumption.
Qed.

(** The number of snapshots: the common height of the aligned columns, or one. *)
Definition nsnaps (cols : list (list arg)) (al : list bool) (n : nat) : Prop :=
  (forall j, j < length cols -> nth j al true = true -> length (nth j cols []) = n) /\
  ((forall j, j < length cols -> nth j al true = false) -> n = 1).

Lemma interleave_spec cols al out : length al = length cols ->
  interleave cols al = Some out <->
  exists n, nsnaps cols al n /\ out = map (combos cols al) (seq 0 n).
Proof.
  intros H.
  assert (K : forall n o p, nsnaps cols al n -> heights cols al = Some (o, p) ->
     (match o with None => 1 | Some k => k end) = n /\ p = pre cols al (length cols)).
  { intros n o p [N1 N2] E. apply heights_sound in E; [|exact H]. destruct E as [E1 E2]. cbn [fst snd] in *.
    split; [|exact E1]. destruct o as [k|].
    - destruct E2 as [(j & Hj & Hj') E2]. rewrite <- (E2 j Hj Hj'). now apply N1.
    - symmetry. apply N2. exact E2. }
  assert (Lp : forall n, nsnaps cols al n -> loop n (fun snap out =>
      do rows <- snap_rows cols al (pre cols al (length cols)) snap; Some (out ++ [rows])) [] = Some (map (combos cols al) (seq 0 n))).
  { intros n [N1 N2].
    destruct (loop_inv (fun i o => o = map (combos cols al) (seq 0 i)) n (fun snap out =>
      do rows <- snap_rows cols al (pre cols al (length cols)) snap; Some (out ++ [rows])) []) as (o & E & ->); [reflexivity| |exact E].
    intros i t Hi ->. rewrite rows_are_combos; [|exact H|].
    - eexists; split; [reflexivity|]. rewrite seq_S, map_app. reflexivity.
    - intros j Hj Ha. rewrite (N1 j Hj Ha). exact Hi. }
  split.
  - unfold interleave. destruct (heights cols al) as [[o p]|] eqn:Eh; [|discriminate].
    assert (Nn : nsnaps cols al (match o with None => 1 | Some k => k end)).
    { pose proof (heights_sound cols al H o p Eh) as [E1 E2]. cbn [fst snd] in *. destruct o as [k|].
      - destruct E2 as [(j & Hj & Hj') E2]. split; [exact E2|]. intros Q. rewrite Q in Hj' by exact Hj. discriminate.
      - split; [|reflexivity]. intros j Hj Ha. rewrite E2 in Ha by exact Hj. discriminate. }
    destruct (K _ o p Nn eq_refl) as [_ ->]. rewrite Lp by exact Nn. intros [= <-]. eexists; split; [exact Nn|reflexivity].
  - intros (n & Nn & ->). unfold interleave. destruct (heights_complete cols al H n (proj1 Nn)) as (o & p & Eh).
    destruct (K n o p Nn Eh) as [E1 ->]. rewrite Eh, E1. apply Lp. exact Nn.
Qed.
