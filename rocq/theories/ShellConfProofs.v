(** * Configurations and catalogue lines with which every run of shell mode fails. *)
From Coq Require Import Reals Lra Lia ZArith List Bool Permutation Sorting.Sorted.
From Verif Require Import ShellConfModel SmoothSpec LoopFacts MatModel RingProofs RockstarProofs KdeProofs4 CmdProofs ShellRunProofs3.
Import List ListNotations.
Local Open Scope R_scope.

(** Partial correctness of a loop. *)
Lemma loop_pc {S : Type} (P : nat -> S -> Prop) n body s s' : loop n body s = Some s' -> P 0%nat s ->
  (forall i t t', (i < n)%nat -> P i t -> body i t = Some t' -> P (Datatypes.S i) t') -> P n s'.
Proof.
  revert s'. induction n as [|n IH]; intros s' E H0 Hs; cbn [loop] in E.
  - injection E as <-. exact H0.
  - destruct (loop n body s) as [t|] eqn:Et; [|discriminate]. apply (Hs n t s'); [lia| |exact E]. apply (IH t); [reflexivity|exact H0|]. intros i u u' Hi. apply Hs. lia.
Qed.

Lemma fold_none {A S : Type} (f : S -> A -> option S) l : fold_left (fun o a => do s <- o; f s a) l None = None.
Proof. induction l; [reflexivity|exact IHl]. Qed.

Lemma fold_pc {A S : Type} (P : S -> Prop) (f : S -> A -> option S) l : (forall s a s', P s -> f s a = Some s' -> P s') ->
  forall s s', P s -> fold_left (fun o a => do s <- o; f s a) l (Some s) = Some s' -> P s'.
Proof.
  intros H. induction l as [|a l IH]; intros s s' Hs E; cbn [fold_left] in E.
  - injection E as <-. exact Hs.
  - destruct (f s a) as [s1|] eqn:Es; [|rewrite fold_none in E; discriminate]. apply (IH s1 s'); [|exact E]. eapply H; eauto.
Qed.

Lemma load_file_length c workers f idxs halos ws halos' ws' xs' : load_file c workers f idxs halos ws = Some (halos', ws', xs') -> length halos' = length halos.
Proof.
  unfold load_file. intros E.
  pose (f0 := fun (st : list Halo * list Halo * list vec) (a : nat) => let '(halos, ws, xs) := st in
    do h <- rd halos a; do r <- load_sphere_vecs h ws xs (f_ms f) (f_tw f) workers (c_sf3 c) (c_rKernelMult c) (c_rMaxMult c) (f_rhoM f);
    let '(h', ws', xs') := r in do halos' <- wr halos a h'; Some (halos', ws', xs')).
  apply (fold_pc (fun st => length (fst (fst st)) = length halos) f0 idxs) in E; [exact E| |reflexivity].
  intros ((hs & w) & xs) a ((hs2 & w2) & xs2) Hs E2. cbn [fst] in *. unfold f0 in E2.
  destruct (rd hs a) as [h|] eqn:Eh; [|discriminate]. destruct (load_sphere_vecs h w xs _ _ _ _ _ _ _) as [((h1 & w1) & xs1)|]; [|discriminate].
  destruct (wr hs a h1) as [hs1|] eqn:Ew; [|discriminate]. injection E2 as <- <- <-. destruct (wr_inv hs hs1 a h1 h Ew) as (_ & L & _). congruence.
Qed.

Lemma sphere_loop_length c workers files halos ws halos' ws' : sphere_loop c workers files halos ws = Some (halos', ws') -> length halos' = length halos.
Proof.
  unfold sphere_loop. intros E.
  pose (f0 := fun (st : list Halo * list Halo) (fi : PFile * list nat) => let '(halos, ws) := st in let '(f, idxs) := fi in
    do r <- load_file c workers f idxs halos ws; let '(halos', ws', _) := r in Some (halos', ws')).
  apply (fold_pc (fun st => length (fst st) = length halos) f0) in E; [exact E| |reflexivity].
  intros (hs & w) (f & idxs) (hs2 & w2) Hs E2. cbn [fst] in *. unfold f0 in E2.
  destruct (load_file c workers f idxs hs w) as [((hs1 & w1) & xs1)|] eqn:El; [|discriminate]. injection E2 as <- <-. apply load_file_length in El. congruence.
Qed.

Lemma gather_length {T} (xs : list T) idxs ys : CmdModel.gather xs idxs = Some ys -> length ys = length idxs.
Proof.
  revert ys. induction idxs as [|i is IH]; intros ys E; cbn in E; [now injection E as <-|].
  destruct (rd xs i); [|discriminate]. destruct (CmdModel.gather xs is) as [zs|] eqn:Ez; [|discriminate]. injection E as <-. cbn. f_equal. now apply IH.
Qed.

Lemma created_length c hd0 coords hs : created c hd0 coords = Some hs -> length hs = length coords.
Proof.
  unfold created. destruct (create_halos _ _ _ _ _ _ coords) as [hs0|] eqn:E; [|discriminate]. destruct (existsb _ coords); [discriminate|]. intros H. injection H as <-.
  apply mapo_length in E. exact E.
Qed.

(** ** A bad smoothing window *)
Definition bad_window (window bins : nat) : Prop := (window mod 2 = 0 \/ window <= 4 \/ bins <= window)%nat.

Lemma get_rs_length h buf rs : get_rs h buf = Some rs -> length rs = length buf.
Proof. unfold get_rs. destruct (negb _); [discriminate|]. intros E. injection E as <-. now rewrite map_length, seq_length. Qed.

Lemma kernel_refused window dx : (window mod 2 = 0 \/ window <= 4)%nat -> get_kernels [] window dx = None.
Proof.
  intros H. unfold get_kernels. cbn [cached]. unfold savgol_kernel. destruct (Nat.eqb_spec (window mod 2) 1); cbn [negb]; [|reflexivity].
  destruct (Nat.leb_spec window 4); [reflexivity|lia].
Qed.

Lemma splash_refused r h window dLim n bins : sized r n bins -> (0 < n)%nat -> (window < bins)%nat -> (window mod 2 = 0 \/ window <= 4)%nat ->
  rb_splashback [] r h 0 window dLim = None.
Proof.
  intros Hs Hn Hw Hb. unfold rb_splashback. destruct (get_rs h (rb_profRs r)) as [rs|] eqn:Er; [|reflexivity]. apply get_rs_length in Er.
  destruct Hs as (Hsn & _ & _ & _ & _ & _ & _ & _ & _ & _ & Hp & _). rewrite Hsn. apply (loop_none n 1); [lia|].
  cbn [loop]. unfold rb_line. cbn [rb_profRhos rb_profRs]. destruct (get_rhos h 0 0 (rb_profRhos r)) as [rhos|]; [|reflexivity].
  unfold smooth. destruct (Nat.eqb_spec (List.length rs) (List.length rhos)); cbn [negb]; [|reflexivity].
  destruct (Nat.leb_spec (List.length rs) window) as [Hc|_]; [exfalso; lia|].
  destruct (rd rs 1), (rd rs 0); try reflexivity. cbv zeta. rewrite kernel_refused by exact Hb. reflexivity.
Qed.

Lemma line_narrow h ring window dLim bins i c r c' r' : (bins <= window)%nat -> length (rb_profRs r) = bins -> Forall (fun b => b = false) (rb_oks r) ->
  rb_line h ring window dLim i (c, r) = Some (c', r') -> length (rb_profRs r') = bins /\ Forall (fun b => b = false) (rb_oks r').
Proof.
  intros Hw Hp Hk E. unfold rb_line in E. destruct (get_rhos h ring i (rb_profRhos r)) as [rhos|]; [|discriminate].
  unfold smooth in E. destruct (negb _); [discriminate|]. destruct (Nat.leb_spec (List.length (rb_profRs r)) window) as [_|Hc]; [|exfalso; lia].
  destruct (wr (rb_oks r) i false) as [oks|] eqn:Ew; [|discriminate]. cbn [negb] in E. injection E as <- <-. cbn [rb_profRs rb_oks]. split; [exact Hp|].
  destruct (wr_inv _ _ _ _ true Ew) as (_ & L & H). apply Forall_forall. intros b Hin. destruct (In_nth _ _ true Hin) as (j & Hj & <-). rewrite H.
  destruct (j =? i)%nat; [reflexivity|]. rewrite Forall_forall in Hk. apply Hk. apply nth_In. lia.
Qed.

Lemma splash_narrow c h ring window dLim n bins c' r' : (bins <= window)%nat -> rb_splashback c (rb_init n bins) h ring window dLim = Some (c', r') ->
  Forall (fun b => b = false) (rb_oks r').
Proof.
  intros Hw E. unfold rb_splashback in E. destruct (get_rs h (rb_profRs (rb_init n bins))) as [rs|] eqn:Er; [|discriminate]. apply get_rs_length in Er.
  assert (Er2 : length rs = bins) by (rewrite Er; unfold rb_init, zeros; cbn [rb_profRs]; apply repeat_length).
  apply (loop_pc (fun _ (st : kcache * RingBuffer) => length (rb_profRs (snd st)) = bins /\ Forall (fun b => b = false) (rb_oks (snd st)))) in E.
  - apply E.
  - cbn [snd rb_profRs rb_oks]. split; [exact Er2|]. unfold rb_init. cbn [rb_oks]. apply Forall_forall. intros b Hb. now apply repeat_spec in Hb.
  - intros i (k1 & r1) (k2 & r2) _ (P1 & P2) E1. cbn [snd] in *. eapply line_narrow; eauto.
Qed.

Lemma ok_pairs_false oks xs ys : Forall (fun b => b = false) oks -> ok_pairs oks xs ys = Some [].
Proof.
  intros H. revert xs ys. induction H as [|b oks -> H IH]; intros xs ys; [reflexivity|]. cbn [ok_pairs].
  assert (Ex : existsb (fun b => b) (false :: oks) = false).
  { apply not_true_iff_false. intros Hc. apply existsb_exists in Hc. destruct Hc as (b & [<-|Hin] & Hb); [discriminate|]. rewrite Forall_forall in H. rewrite (H b Hin) in Hb. discriminate. }
  destruct xs as [|x xs]; [now rewrite Ex|]. destruct ys as [|y ys]; [now rewrite Ex|]. now rewrite IH.
Qed.

Lemma filter_ring_false r levels h : Forall (fun b => b = false) (rb_oks r) -> filter_ring r levels h = None.
Proof. intros H. unfold filter_ring. rewrite ok_pairs_false by exact H. reflexivity. Qed.

Lemma coeffs_fatal B inverse h n bins rings window cutoff levels eta order : (0 < n)%nat -> (0 < rings)%nat -> bad_window window bins ->
  calc_coeffs B inverse [] h (repeat (rb_init n bins) rings) window cutoff levels eta order = None.
Proof.
  intros Hn Hr Hbad. unfold calc_coeffs. rewrite repeat_length. set (body := fun (i : nat) (st : kcache * list RingBuffer) => _).
  destruct (Nat.lt_ge_cases window bins) as [Hlt|Hge].
  - rewrite (loop_none rings 1 body); [reflexivity|lia|]. cbn [loop]. unfold body. destruct rings as [|rings]; [lia|]. cbn [repeat rd nth_error].
    rewrite (rb_clear_ok _ n bins (rb_init_sized n bins)). rewrite (splash_refused _ h window cutoff n bins (rb_init_sized n bins) Hn Hlt); [reflexivity|].
    destruct Hbad as [H|[H|H]]; [auto|auto|lia].
  - match goal with |- context [loop rings body ?s] => destruct (loop rings body s) as [(k & buf)|] eqn:E; [|reflexivity] end.
    apply (loop_pc (fun i (st : kcache * list RingBuffer) => length (snd st) = rings /\ (i = 0%nat -> nth_error (snd st) 0 = Some (rb_init n bins)) /\
       ((0 < i)%nat -> exists r, nth_error (snd st) 0 = Some r /\ Forall (fun b => b = false) (rb_oks r)))) in E.
    + destruct E as (_ & _ & H). destruct (H Hr) as (r & Er & Hf). cbn [snd] in *. unfold filter_points.
      rewrite (mapo_none _ _ r); [reflexivity|eapply nth_error_In; exact Er|]. apply filter_ring_false. exact Hf.
    + cbn [snd]. split; [apply repeat_length|]. split; [intros _; destruct rings; [lia|reflexivity]|lia].
    + intros i (k1 & b1) (k2 & b2) Hi (L & H0 & H1) E1. cbn [snd] in *. unfold body in E1.
      destruct (rd b1 i) as [r1|] eqn:Er1; [|discriminate]. destruct (rb_clear r1) as [r2|] eqn:Ec; [|discriminate].
      destruct (rb_splashback k1 r2 h i window cutoff) as [(k3 & r3)|] eqn:Es; [|discriminate]. destruct (wr b1 i r3) as [b3|] eqn:Ew; [|discriminate]. injection E1 as <- <-.
      destruct (wr_inv b1 b3 i r3 r3 Ew) as (Hl & L3 & Hw3). split; [congruence|]. split; [lia|]. intros _.
      exists (nth 0 b3 r3). split; [apply nth_error_nth'; lia|]. rewrite Hw3. destruct i as [|i].
      * cbn [Nat.eqb]. unfold rd in Er1. rewrite (H0 eq_refl) in Er1. injection Er1 as <-. rewrite (rb_clear_ok _ n bins (rb_init_sized n bins)) in Ec. injection Ec as <-. exact (splash_narrow _ _ _ _ _ _ _ _ _ Hge Es).
      * cbn [Nat.eqb]. destruct (H1 ltac:(lia)) as (r & E0 & Hf). rewrite (nth_error_nth _ _ r3 E0). exact Hf.
Qed.

Lemma snapshots_none B inverse c workers hd0 read ib coords ks st out : (exists s, In s ks /\ s <> (-1)%Z) ->
  (forall s, In s ks -> s <> (-1)%Z -> shell_snapshot B inverse c workers hd0 read s coords (CmdModel.mget ib s) st out = None) ->
  shell_snapshots B inverse c workers hd0 read ib coords ks st out = None.
Proof.
  induction ks as [|s ks IH]; intros (s0 & Hin & Hs0) H; [destruct Hin|]. cbn [shell_snapshots]. destruct (Z.eqb_spec s (-1)) as [->|Hs].
  - apply IH; [|intros; apply H; auto; now right]. destruct Hin as [<-|Hin]; [contradiction|]. eauto.
  - rewrite H; [reflexivity|now left|exact Hs].
Qed.

Lemma snapshots_none_at B inverse c workers hd0 read ib coords ks s : In s ks -> s <> (-1)%Z ->
  (forall st out, shell_snapshot B inverse c workers hd0 read s coords (CmdModel.mget ib s) st out = None) ->
  forall st out, shell_snapshots B inverse c workers hd0 read ib coords ks st out = None.
Proof.
  intros Hin Hs H. induction ks as [|t ks IH]; intros st out; [destruct Hin|]. cbn [shell_snapshots].
  destruct (Z.eqb_spec t (-1)) as [->|Ht]; [apply IH; destruct Hin; [congruence|assumption]|].
  destruct (Z.eq_dec t s) as [->|Hts]; [now rewrite H|]. destruct (shell_snapshot _ _ _ _ _ _ t _ _ st out) as [(st' & out')|]; [|reflexivity].
  apply IH. destruct Hin; [congruence|assumption].
Qed.

Lemma rows_fatal B inverse c workers enum read ids snaps coords : (forall l, Permutation (enum l) l) -> (0 < length (sc_norms c))%nat -> (0 < sc_spokes c)%nat ->
  bad_window (sc_window c) (sc_bins c) -> (length snaps <= length ids)%nat -> (exists s, In s snaps /\ s <> (-1)%Z) ->
  shell_rows B inverse c workers enum read ids snaps coords = None.
Proof.
  intros Hen Hr Hn Hbad Ll (s & Hs & Hs1). unfold shell_rows. destruct (binBySnap_ok snaps ids Ll) as (sb & ib & -> & (_ & Ksb & _) & (_ & _ & Gib)).
  set (ks := CmdModel.sortInts (enum (CmdModel.mkeys sb))).
  assert (Hks : forall t, In t ks <-> In t snaps).
  { intros t. assert (P : Permutation ks (CmdModel.mkeys sb)) by (unfold ks; rewrite sortInts_perm; apply Hen).
    assert (Hkm : In t ks <-> In t (CmdModel.mkeys sb)) by (split; apply Permutation_in; [exact P|symmetry; exact P]). rewrite Hkm, Ksb. split.
    - intros (i & Hi & <-). now apply nth_In.
    - intros Hin. destruct (In_nth _ _ 0%Z Hin) as (i & Hi & E). eauto. }
  destruct (rd ks 0); [|reflexivity]. destruct (read z) as [hds|]; [|reflexivity]. destruct (rd hds 0) as [hd0|]; [|reflexivity].
  apply snapshots_none; [exists s; split; [apply Hks; exact Hs|exact Hs1]|]. intros t Ht Ht1. unfold shell_snapshot.
  destruct (CmdModel.gather coords (CmdModel.mget ib t)) as [sc|] eqn:Eg; [|reflexivity]. apply gather_length in Eg.
  destruct (created c hd0 sc) as [hs|] eqn:Ec; [|reflexivity]. apply created_length in Ec.
  destruct (read t) as [files|]; [|reflexivity]. destruct (sphere_loop (sc_load c) workers files hs _) as [(hs' & ws')|] eqn:Es; [|reflexivity]. apply sphere_loop_length in Es.
  assert (Hne : (0 < length (CmdModel.mget ib t))%nat).
  { rewrite Gib, map_length. apply Hks in Ht. destruct (In_nth _ _ 0%Z Ht) as (i & Hi & E). assert (Hin : In i (rows_of snaps (length snaps) t)) by (apply in_rows_of; auto).
    destruct (rows_of snaps (length snaps) t); [destruct Hin|cbn; lia]. }
  unfold halo_analysis. rewrite (loop_none (List.length hs') 1); [reflexivity|lia|]. cbn [loop].
  destruct (rd hs' 0) as [h|]; [|reflexivity]. destruct (rd (CmdModel.mget ib t) 0); [|reflexivity]. rewrite coeffs_fatal; auto.
Qed.

(** ** Lines without a radius or a snapshot *)
Lemma rows_no_radius B inverse c workers enum read ids snaps coords i : (forall l, Permutation (enum l) l) -> (length snaps <= length ids)%nat -> length coords = length snaps ->
  (i < length snaps)%nat -> nth i snaps 0%Z <> (-1)%Z -> snd (nth i coords ((0, 0, 0), 0)) <= 0 ->
  shell_rows B inverse c workers enum read ids snaps coords = None.
Proof.
  intros Hen Ll Lc Hi Hs1 Hr. unfold shell_rows. destruct (binBySnap_ok snaps ids Ll) as (sb & ib & -> & (_ & Ksb & _) & (_ & _ & Gib)).
  set (ks := CmdModel.sortInts (enum (CmdModel.mkeys sb))).
  assert (Hks : In (nth i snaps 0%Z) ks).
  { assert (P : Permutation ks (CmdModel.mkeys sb)) by (unfold ks; rewrite sortInts_perm; apply Hen). apply (Permutation_in _ (Permutation_sym P)). apply Ksb. eauto. }
  destruct (rd ks 0); [|reflexivity]. destruct (read z) as [hds|]; [|reflexivity]. destruct (rd hds 0) as [hd0|]; [|reflexivity].
  apply (snapshots_none_at _ _ _ _ _ _ _ _ _ (nth i snaps 0%Z) Hks Hs1). intros ((k & buf) & ws) out. unfold shell_snapshot.
  assert (Em : CmdModel.mget ib (nth i snaps 0%Z) = rows_of snaps (length snaps) (nth i snaps 0%Z)) by (rewrite Gib; apply map_id). rewrite Em.
  rewrite (gather_spec ((0, 0, 0), 0)) by (intros j Hj; apply in_rows_of in Hj; lia).
  rewrite (created_none c hd0 _ (nth i coords ((0, 0, 0), 0))); [reflexivity| |exact Hr].
  apply in_map_iff. exists i. split; [reflexivity|]. apply in_rows_of. auto.
Qed.

Lemma rows_no_snapshot B inverse c workers enum read ids snaps coords : (forall l, Permutation (enum l) l) -> (length snaps <= length ids)%nat ->
  In (-1)%Z snaps -> (forall s, In s snaps -> (-1 <= s)%Z) -> read (-1)%Z = None ->
  shell_rows B inverse c workers enum read ids snaps coords = None.
Proof.
  intros Hen Ll Hin Hge Hrd. unfold shell_rows. destruct (binBySnap_ok snaps ids Ll) as (sb & ib & -> & (_ & Ksb & _) & _).
  set (ks := CmdModel.sortInts (enum (CmdModel.mkeys sb))).
  assert (P : Permutation ks (CmdModel.mkeys sb)) by (unfold ks; rewrite sortInts_perm; apply Hen).
  assert (Hks : forall t, In t ks <-> In t snaps).
  { intros t. assert (Hkm : In t ks <-> In t (CmdModel.mkeys sb)) by (split; apply Permutation_in; [exact P|symmetry; exact P]). rewrite Hkm, Ksb. split.
    - intros (i & Hi & <-). now apply nth_In.
    - intros H. destruct (In_nth _ _ 0%Z H) as (i & Hi & E). eauto. }
  assert (Hso : StronglySorted Z.le ks) by apply sortInts_sorted.
  assert (E0 : rd ks 0 = Some (-1)%Z).
  { destruct ks as [|k0 ks']; [exfalso; apply (Hks (-1)%Z); exact Hin|]. cbn. f_equal. apply Z.le_antisymm.
    - apply StronglySorted_inv in Hso. destruct Hso as (_ & Hf). rewrite Forall_forall in Hf. destruct (proj2 (Hks (-1)%Z) Hin) as [<-|H]; [lia|]. now apply Hf.
    - apply Hge. apply Hks. now left. }
  rewrite E0, Hrd. reflexivity.
Qed.
