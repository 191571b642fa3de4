(** * C32: header memoisation. *)
From Coq Require Import Lia ZArith List.
From Verif Require Import GoBase LoopBase BytesModel BytesFacts HeaderMemoModel.
Import List ListNotations.
Local Open Scope Z_scope.

(** A header that fits io.Header: six 64-bit and six 32-bit patterns. *)
Definition good_header (h : header) : Prop :=
  length (hd64 h) = 6%nat /\ length (hd32 h) = 6%nat /\
  Forall (fun v => 0 <= v < 2 ^ 64) (hd64 h) /\ Forall (fun v => 0 <= v < 2 ^ 32) (hd32 h).

(** The snapshots that can be read have nb well-formed headers. *)
Definition good_source (src : Z -> res (list header)) (nb : nat) : Prop :=
  forall snap hds, src snap = Ok hds -> length hds = nb /\ Forall good_header hds.

Lemma flat_map_put_length n l : length (flat_map (put LE n) l) = (n * length l)%nat.
Proof. apply flat_map_length. intros; apply put_length. Qed.

Lemma put_header_length h : good_header h -> length (put_header h) = 72%nat.
Proof. intros (H1 & H2 & _). unfold put_header. rewrite app_length, !flat_map_put_length, H1, H2. reflexivity. Qed.

Lemma map_get_put n l : Forall (fun v => 0 <= v < 256 ^ Z.of_nat n) l -> map (get LE) (map (put LE n) l) = l.
Proof. intros F. rewrite map_map. induction F as [|v l Hv F IH]; [reflexivity|]. cbn [map]. now rewrite IH, get_put_small. Qed.

Lemma chunks_put n l : chunks n (length l) (flat_map (put LE n) l) = map (put LE n) l.
Proof. apply chunks_flat_map. intros; apply put_length. Qed.

Lemma header_round_trip h : good_header h -> header_of (put_header h) = h.
Proof.
  destruct h as [ws vs]. intros (H1 & H2 & F1 & F2). cbn [hd64 hd32] in *. unfold header_of, put_header. cbn [hd64 hd32].
  assert (L : length (flat_map (put LE 8) ws) = 48%nat) by (now rewrite flat_map_put_length, H1).
  rewrite firstn_app, skipn_app, L, Nat.sub_diag, firstn_all2, skipn_all2 by lia. rewrite firstn_O, app_nil_r, skipn_O. cbn [app].
  pose proof (chunks_put 8 ws) as C1. rewrite H1 in C1. pose proof (chunks_put 4 vs) as C2. rewrite H2 in C2.
  rewrite C1, C2, !map_get_put by assumption. reflexivity.
Qed.

Lemma memo_bytes_length hds : Forall good_header hds -> length (memo_bytes hds) = (72 * length hds)%nat.
Proof.
  intros F. unfold memo_bytes. induction F as [|h hds Hh F IH]; [reflexivity|]. cbn [flat_map length].
  rewrite app_length, put_header_length, IH by assumption. lia.
Qed.

Lemma memo_round_trip hds : Forall good_header hds -> read_memo (length hds) (memo_bytes hds) = hds.
Proof.
  intros F. unfold read_memo. rewrite <- (app_nil_r (memo_bytes hds)), read_full_app by now apply memo_bytes_length.
  unfold memo_bytes. induction F as [|h hds Hh F IH]; [reflexivity|]. cbn [flat_map length chunks map].
  rewrite firstn_app, skipn_app, put_header_length, Nat.sub_diag by assumption.
  rewrite firstn_all2, skipn_all2 by (rewrite put_header_length by assumption; lia). rewrite firstn_O, app_nil_r, skipn_O. cbn [app].
  now rewrite header_round_trip, IH.
Qed.

(** A history without torn memo files: crashes either leave no file or a complete one. *)
Definition untorn (nb : nat) (e : event) : Prop :=
  match e with CrashDuring _ disk => (72 * nb <= disk)%nat | _ => True end.

(** A directory as left by earlier runs without torn writes. *)
Definition honest (src : Z -> res (list header)) (d : memo_dir) : Prop :=
  forall snap file, d snap = Some file -> exists hds, src snap = Ok hds /\ file = memo_bytes hds.

Lemma step_honest src nb d snap disk : good_source src nb -> honest src d -> (72 * nb <= disk)%nat ->
  fst (read_headers src nb d snap disk) = src snap /\ honest src (snd (read_headers src nb d snap disk)).
Proof.
  intros G H Hd. unfold read_headers. destruct (d snap) as [file|] eqn:E.
  - destruct (H snap file E) as (hds & Es & ->). cbn [fst snd]. split; [|exact H]. rewrite Es.
    destruct (G snap hds Es) as [<- F]. now rewrite memo_round_trip.
  - destruct (src snap) as [hds| |] eqn:Es; cbn [fst snd]; (split; [reflexivity|]); try exact H.
    destruct (G snap hds Es) as [L F]. intros s file. unfold set_file. destruct (Z.eqb_spec s snap) as [->|].
    + intros [= <-]. exists hds. split; [exact Es|]. apply firstn_all2. rewrite memo_bytes_length by exact F. lia.
    + apply H.
Qed.

(** Transparent in every history without torn memo files: whatever was called, and wherever else processes died,
    each call returns what reading the snapshot would return. *)
Theorem C32_transparent : forall src nb d es,
  good_source src nb -> honest src d -> Forall (untorn nb) es ->
  Forall (fun sr => snd sr = src (fst sr)) (run src nb d es).
Proof.
  intros src nb d es G H F. revert d H. induction F as [|e es He F IH]; intros d H; [constructor|].
  destruct e as [snap|snap|snap disk]; cbn [run].
  - destruct (read_headers src nb d snap (72 * nb)) as [r d'] eqn:E.
    destruct (step_honest src nb d snap (72 * nb) G H (le_n _)) as [S1 S2]. rewrite E in S1, S2. cbn [fst snd] in *.
    constructor; [exact S1|]. now apply IH.
  - now apply IH.
  - apply IH. now apply step_honest.
Qed.
Print Assumptions C32_transparent.

(** A torn write is never noticed: if a process dies (or the disk fills up) anywhere inside the write of the
    memo file, every later call for that snapshot succeeds and returns all-zero headers. *)
Theorem C96_crash_refuted : forall src nb d snap hds disk later,
  good_source src nb -> d snap = None -> src snap = Ok hds -> (disk < 72 * nb)%nat ->
  Forall (fun sr => fst sr = snap -> snd sr = Ok (repeat zero_header nb))
         (run src nb d (CrashDuring snap disk :: later)).
Proof.
  intros src nb d snap hds disk later G E Es Hd. cbn [run].
  assert (Inv : exists file, snd (read_headers src nb d snap disk) snap = Some file /\ (length file < 72 * nb)%nat).
  { unfold read_headers. rewrite E, Es. cbn [snd]. unfold set_file. rewrite Z.eqb_refl. eexists; split; [reflexivity|].
    rewrite firstn_length. lia. }
  generalize dependent (snd (read_headers src nb d snap disk)). clear E Hd. intros d' (file & E & L).
  revert d' E. induction later as [|e later IH]; intros d' E; [constructor|].
  assert (K : forall s k, snd (read_headers src nb d' s k) snap = Some file).
  { intros s k. unfold read_headers. destruct (d' s) eqn:Es'; [exact E|]. destruct (src s); cbn [snd]; try exact E.
    unfold set_file. destruct (Z.eqb_spec snap s) as [<-|]; [congruence|exact E]. }
  destruct e as [s|s|s k]; cbn [run].
  - pose proof (K s (72 * nb)%nat) as Ks. destruct (read_headers src nb d' s (72 * nb)) as [r d''] eqn:Er. constructor; [|now apply IH].
    cbn [fst snd]. intros ->. unfold read_headers in Er. rewrite E in Er. injection Er as <- _.
    unfold read_memo. now rewrite read_full_short.
  - now apply IH.
  - apply IH, K.
Qed.
Print Assumptions C96_crash_refuted.

(** Two blocks with distinct headers; the second call is answered from the memo file. *)
Definition example_header (n : Z) : header := {| hd64 := [1; 2; 3; 4; n; 2 ^ 63]; hd32 := [7; 8; 9; 10; 11; 2 ^ 31] |}.
Definition example_src (snap : Z) : res (list header) :=
  if snap =? 3 then Ok [example_header 100; example_header 200] else Err.

Example C32_nonvacuous : good_source example_src 2 /\ honest example_src (fun _ => None) /\
  run example_src 2 (fun _ => None) [CrashBefore 3; Call 3; CrashDuring 3 144; Call 3; Call 4] =
    [(3, Ok [example_header 100; example_header 200]); (3, Ok [example_header 100; example_header 200]); (4, Err)] /\
  run example_src 2 (fun _ => None) [CrashDuring 3 143; Call 3] = [(3, Ok [zero_header; zero_header])].
Proof.
  split; [|split; [intros ? ? ?; discriminate|vm_compute; auto]].
  intros snap hds. unfold example_src. destruct (snap =? 3); [|discriminate]. intros [= <-]. split; [reflexivity|].
  repeat constructor; cbn; lia.
Qed.
