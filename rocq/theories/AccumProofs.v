(** * The loops over snapshots, files and halos shared by phase and potential mode: every row gets what its own snapshot's files give. *)
From Verif Require Import PhaseModel LoopFacts CmdProofs.
From Coq Require Import ZArith List Lia Permutation Sorted.
Import List ListNotations.
Local Open Scope nat_scope.

Section AccumFacts.
Context {S F A : Type}.
Variable meets : S -> F -> bool.
Variable insert : Z -> nat -> nat -> S -> F -> A -> option A.
Variable d : A.
Variable ds : S.
Variable Inv : A -> Prop.
Variable OK : S -> F -> Prop.
Hypothesis ins_ok : forall snap fi j s f a, OK s f -> meets s f = true -> Inv a -> exists a', insert snap fi j s f a = Some a' /\ Inv a'.

(** What a file does to the grid of one sphere. *)
Definition row_step (snap : Z) (fi j : nat) (s : S) (f : F) (a : A) : option A := if meets s f then insert snap fi j s f a else Some a.
Fixpoint row_fold (snap : Z) (fi j : nat) (s : S) (files : list F) (a : A) : option A :=
  match files with [] => Some a | f :: fs => do a' <- row_step snap fi j s f a; row_fold snap (fi + 1) j s fs a' end.

Lemma accum_list snap fi spheres idxs f : length idxs = length spheres -> NoDup idxs -> (forall s, In s spheres -> OK s f) ->
  forall l sets, NoDup l -> (forall j, In j l -> j < length spheres /\ meets (nth j spheres ds) f = true) ->
  (forall i, In i idxs -> i < length sets) -> (forall i, In i idxs -> Inv (nth i sets d)) ->
  exists sets', fold_left (fun o j => do sets <- o; do s <- rd spheres j; do idx <- rd idxs j; do a <- rd sets idx;
      do a' <- insert snap fi j s f a; wr sets idx a') l (Some sets) = Some sets' /\ length sets' = length sets /\
    (forall i, In i idxs -> Inv (nth i sets' d)) /\
    (forall k, (forall j, In j l -> nth j idxs 0 <> k) -> nth k sets' d = nth k sets d) /\
    (forall j, In j l -> insert snap fi j (nth j spheres ds) f (nth (nth j idxs 0) sets d) = Some (nth (nth j idxs 0) sets' d)).
Proof.
  intros HL ND HOK. induction l as [|j l IH]; intros sets Nl Hl Hi Hinv; cbn [fold_left].
  - exists sets. repeat split; auto. intros j [].
  - inversion Nl as [|? ? Hnj Nl']; subst. destruct (Hl j (or_introl eq_refl)) as (Hj & Hm).
    rewrite (rd_nth spheres j ds) by exact Hj. rewrite (rd_nth idxs j 0) by lia. set (idx := nth j idxs 0) in *.
    assert (Hidx : In idx idxs) by (apply nth_In; lia). rewrite (rd_nth sets idx d) by auto.
    destruct (ins_ok snap fi j (nth j spheres ds) f (nth idx sets d) (HOK _ (nth_In _ _ Hj)) Hm (Hinv _ Hidx)) as (a' & Ea & Ia). rewrite Ea.
    destruct (wr_some sets idx a' d (Hi _ Hidx)) as (s1 & Ew & Lw & Nw). rewrite Ew.
    destruct (IH s1 Nl') as (s2 & E2 & L2 & I2 & U2 & S2).
    { intros j' H'. apply Hl. now right. }
    { intros i H'. rewrite Lw. auto. }
    { intros i H'. rewrite Nw. destruct (Nat.eqb_spec i idx); auto. }
    exists s2. split; [exact E2|]. split; [congruence|]. split; [exact I2|].
    assert (Hfresh : forall j', In j' l -> nth j' idxs 0 <> idx).
    { intros j' H' E. apply Hnj. replace j with j'; [exact H'|]. assert (j' < length spheres) by (apply Hl; now right). unfold idx in E.
      apply (NoDup_nth idxs 0) in E; [exact E|exact ND|lia|lia]. }
    split.
    + intros k Hk. rewrite U2 by (intros j' H'; apply Hk; now right). rewrite Nw. destruct (Nat.eqb_spec k idx) as [->|]; [|reflexivity]. exfalso. now apply (Hk j (or_introl eq_refl)).
    + intros j' [<-|H'].
      * fold idx. rewrite Ea. f_equal. rewrite U2 by exact Hfresh. rewrite Nw. now rewrite Nat.eqb_refl.
      * rewrite <- S2 by exact H'. f_equal. rewrite Nw. destruct (Nat.eqb_spec (nth j' idxs 0) idx) as [E|]; [|reflexivity]. now apply Hfresh in E.
Qed.

Lemma accum_file_ok snap fi spheres idxs f sets : length idxs = length spheres -> NoDup idxs -> (forall s, In s spheres -> OK s f) ->
  (forall i, In i idxs -> i < length sets) -> (forall i, In i idxs -> Inv (nth i sets d)) ->
  exists sets', accum_file meets insert snap fi spheres idxs f sets = Some sets' /\ length sets' = length sets /\
    (forall i, In i idxs -> Inv (nth i sets' d)) /\ (forall k, ~ In k idxs -> nth k sets' d = nth k sets d) /\
    (forall j, j < length spheres -> row_step snap fi j (nth j spheres ds) f (nth (nth j idxs 0) sets d) = Some (nth (nth j idxs 0) sets' d)).
Proof.
  intros HL ND HOK Hi Hinv. unfold accum_file. set (l := filter _ _).
  assert (Hl : forall j, In j l <-> j < length spheres /\ meets (nth j spheres ds) f = true).
  { intros j. unfold l. rewrite filter_In, in_seq. split.
    - intros (Hj & H). rewrite (rd_nth spheres j ds) in H by lia. split; [lia|exact H].
    - intros (Hj & H). split; [lia|]. rewrite (rd_nth spheres j ds) by lia. exact H. }
  destruct (accum_list snap fi spheres idxs f HL ND HOK l sets) as (s' & E & L & I & U & V).
  { apply NoDup_filter, seq_NoDup. } { intros j. apply Hl. } { exact Hi. } { exact Hinv. }
  exists s'. split; [exact E|]. split; [exact L|]. split; [exact I|]. split.
  - intros k Hk. apply U. intros j Hj <-. apply Hk, nth_In. apply Hl in Hj. lia.
  - intros j Hj. unfold row_step. destruct (meets (nth j spheres ds) f) eqn:Em; [apply V; apply Hl; auto|]. f_equal. symmetry. apply U.
    intros j' Hj' E'. apply Hl in Hj'. assert (j' = j) by (apply (NoDup_nth idxs 0) in E'; [exact E'|exact ND|lia|lia]). subst. destruct Hj'. congruence.
Qed.

Lemma accum_files_ok snap spheres idxs : length idxs = length spheres -> NoDup idxs -> forall files fi sets, (forall s f, In s spheres -> In f files -> OK s f) ->
  (forall i, In i idxs -> i < length sets) -> (forall i, In i idxs -> Inv (nth i sets d)) ->
  exists sets', accum_files meets insert snap fi spheres idxs files sets = Some sets' /\ length sets' = length sets /\
    (forall i, In i idxs -> Inv (nth i sets' d)) /\ (forall k, ~ In k idxs -> nth k sets' d = nth k sets d) /\
    (forall j, j < length spheres -> row_fold snap fi j (nth j spheres ds) files (nth (nth j idxs 0) sets d) = Some (nth (nth j idxs 0) sets' d)).
Proof.
  intros HL ND. induction files as [|f fs IH]; intros fi sets HOK Hi Hinv; cbn [accum_files row_fold].
  - exists sets. repeat split; auto.
  - destruct (accum_file_ok snap fi spheres idxs f sets HL ND) as (s1 & E1 & L1 & I1 & U1 & V1); [intros; apply HOK; cbn; auto|exact Hi|exact Hinv|]. rewrite E1.
    destruct (IH (fi + 1) s1) as (s2 & E2 & L2 & I2 & U2 & V2); [intros; apply HOK; cbn; auto|intros; rewrite L1; auto|exact I1|].
    exists s2. split; [exact E2|]. split; [congruence|]. split; [exact I2|]. split.
    + intros k Hk. rewrite U2, U1 by exact Hk. reflexivity.
    + intros j Hj. rewrite (V1 j Hj). apply V2, Hj.
Qed.

Section Snaps.
Variables (read : Z -> option (list F)) (ib : CmdModel.gmap nat) (snaps : list Z) (spheres : list S).
Hypothesis Hib : keyed snaps (length snaps) (fun i => i) ib.
Hypothesis Hsp : length spheres = length snaps.
Hypothesis Hread : forall i, i < length snaps -> nth i snaps 0%Z <> (-1)%Z -> exists files, read (nth i snaps 0%Z) = Some files /\ files <> [] /\
  forall f, In f files -> OK (nth i spheres ds) f.

Lemma accum_snapshots_ok : forall ks sets, NoDup ks -> (forall k, In k ks -> exists i, i < length snaps /\ nth i snaps 0%Z = k) ->
  length sets = length snaps -> (forall i, i < length snaps -> Inv (nth i sets d)) ->
  exists sets', accum_snapshots meets insert read ib spheres ks sets = Some sets' /\ length sets' = length snaps /\
    (forall i, i < length snaps -> Inv (nth i sets' d)) /\
    forall i, i < length snaps ->
      (~ In (nth i snaps 0%Z) ks \/ nth i snaps 0%Z = (-1)%Z -> nth i sets' d = nth i sets d) /\
      (In (nth i snaps 0%Z) ks -> nth i snaps 0%Z <> (-1)%Z -> forall files, read (nth i snaps 0%Z) = Some files ->
        exists j, row_fold (nth i snaps 0%Z) 0 j (nth i spheres ds) files (nth i sets d) = Some (nth i sets' d)).
Proof.
  destruct Hib as (_ & _ & G). induction ks as [|k ks IH]; intros sets Nk Hk HL HI; cbn [accum_snapshots].
  { exists sets. split; [reflexivity|]. split; [exact HL|]. split; [exact HI|]. intros i Hi. split; [reflexivity|intros []]. }
  inversion Nk as [|? ? Hnk Nk']; subst. assert (Hk' : forall k', In k' ks -> exists i, i < length snaps /\ nth i snaps 0%Z = k') by (intros; apply Hk; now right).
  destruct (Z.eqb_spec k (-1)) as [->|Hne].
  { destruct (IH sets Nk' Hk' HL HI) as (s' & E & L & I & H). exists s'. split; [exact E|]. split; [exact L|]. split; [exact I|]. intros i Hi. destruct (H i Hi) as (H1 & H2). split.
    - intros [Hn|Hn]; apply H1; [left|right; exact Hn]. intros Hin. apply Hn. now right.
    - intros [Hin|Hin] Hn; [congruence|]. intros files Hf. apply H2; auto. }
  rewrite G, map_id. set (idxs := rows_of snaps (length snaps) k).
  assert (Hin : forall i, In i idxs <-> i < length snaps /\ nth i snaps 0%Z = k) by (intros i; apply in_rows_of).
  rewrite (gather_spec ds) by (intros i H; apply Hin in H; lia).
  destruct (Hk k (or_introl eq_refl)) as (i0 & Hi0 & E0). destruct (Hread i0 Hi0) as (files & Er & Hnf & _); [congruence|]. rewrite E0 in Er. rewrite Er.
  assert (Hfs : forall i, In i idxs -> forall f, In f files -> OK (nth i spheres ds) f).
  { intros i H f Hf. apply Hin in H. destruct H as (Hi & Ei). destruct (Hread i Hi) as (fs & Efs & _ & Hfs); [congruence|]. rewrite Ei, Er in Efs. injection Efs as <-. now apply Hfs. }
  destruct (accum_files_ok k (map (fun i => nth i spheres ds) idxs) idxs) with (files := files) (fi := 0) (sets := sets) as (s1 & E1 & L1 & I1 & U1 & V1).
  { now rewrite map_length. } { apply nodup_rows_of. }
  { intros s f Hs Hf. apply in_map_iff in Hs. destruct Hs as (i & <- & Hi). now apply Hfs. }
  { intros i Hi. apply Hin in Hi. lia. } { intros i Hi. apply HI. apply Hin in Hi. lia. }
  destruct files as [|f0 fs0] eqn:Ef; [congruence|]. rewrite <- Ef in *. rewrite E1.
  destruct (IH s1 Nk' Hk') as (s2 & E2 & L2 & I2 & H2); [congruence| |].
  { intros i Hi. destruct (in_dec Nat.eq_dec i idxs) as [Hd|Hd]; [now apply I1|]. rewrite U1 by exact Hd. now apply HI. }
  exists s2. split; [exact E2|]. split; [exact L2|]. split; [exact I2|]. intros i Hi. destruct (H2 i Hi) as (Ha & Hb).
  destruct (Z.eq_dec (nth i snaps 0%Z) k) as [Ei|Ei].
  - split; [intros [Hn|Hn]; [exfalso; apply Hn; now left|congruence]|]. intros _ _ files' Hf'. rewrite Ei, Er in Hf'. injection Hf' as <-.
    assert (Hi' : In i idxs) by (apply Hin; auto). apply (In_nth _ _ 0) in Hi'. destruct Hi' as (j & Hj & Enj). exists j.
    specialize (V1 j). rewrite map_length in V1. specialize (V1 Hj). rewrite Enj in V1. rewrite Ha by (left; now rewrite Ei). rewrite Ei.
    replace (nth i spheres ds) with (nth j (map (fun i1 => nth i1 spheres ds) idxs) ds); [exact V1|].
    rewrite (nth_indep _ ds (nth 0 spheres ds)) by (rewrite map_length; exact Hj). rewrite (map_nth (fun i1 => nth i1 spheres ds)). now rewrite Enj.
  - assert (Hni : ~ In i idxs) by (rewrite Hin; tauto). split.
    + intros Hn. rewrite Ha; [now apply U1|]. destruct Hn as [Hn|Hn]; [left|now right]. intros H. apply Hn. now right.
    + intros [H|H] Hn files' Hf'; [congruence|]. destruct (Hb H Hn files' Hf') as (j & Ej). exists j. rewrite <- Ej. f_equal. symmetry. now apply U1.
Qed.
End Snaps.

Theorem accum_run_ok (enum : list Z -> list Z) read ids snaps spheres zero :
  (forall l, Permutation (enum l) l) -> length ids = length snaps -> length spheres = length snaps -> snaps <> [] -> Inv zero ->
  (forall i, i < length snaps -> nth i snaps 0%Z <> (-1)%Z -> exists files, read (nth i snaps 0%Z) = Some files /\ files <> [] /\
     forall f, In f files -> OK (nth i spheres ds) f) ->
  exists sets, accum_run meets insert enum read ids snaps spheres zero = Some sets /\ length sets = length snaps /\
    (forall i, i < length snaps -> Inv (nth i sets d)) /\
    forall i, i < length snaps ->
      (nth i snaps 0%Z = (-1)%Z -> nth i sets d = zero) /\
      (nth i snaps 0%Z <> (-1)%Z -> forall files, read (nth i snaps 0%Z) = Some files ->
        exists j, row_fold (nth i snaps 0%Z) 0 j (nth i spheres ds) files zero = Some (nth i sets d)).
Proof.
  intros Hen Li Ls Hne Hz Hr. unfold accum_run. destruct ids as [|id0 ids'] eqn:Eids; [destruct snaps; [congruence|discriminate]|]. rewrite <- Eids in *.
  destruct (binBySnap_ok snaps ids ltac:(lia)) as (sb & ib & -> & (Nsb & Ksb & _) & Hib).
  set (ks := CmdModel.sortInts (enum (CmdModel.mkeys sb))).
  assert (Pk : Permutation ks (CmdModel.mkeys sb)) by (unfold ks; rewrite sortInts_perm; apply Hen).
  assert (Hlen : 0 < length snaps) by (destruct snaps; [congruence|cbn; lia]).
  rewrite (rd_nth snaps 0 0%Z) by lia.
  destruct (accum_snapshots_ok read ib snaps spheres Hib Ls Hr ks (repeat zero (length ids))) as (s' & E & L & I & H).
  { apply (Permutation_NoDup (Permutation_sym Pk) Nsb). }
  { intros k Hk. apply Ksb. apply (Permutation_in _ Pk Hk). }
  { rewrite repeat_length. exact Li. }
  { intros i Hi. rewrite (nth_indep _ d zero) by (rewrite repeat_length; lia). now rewrite nth_repeat. }
  exists s'. split; [exact E|]. split; [exact L|]. split; [exact I|]. intros i Hi. destruct (H i Hi) as (Ha & Hb).
  assert (Ez : nth i (repeat zero (length ids)) d = zero) by (rewrite (nth_indep _ d zero) by (rewrite repeat_length; lia); apply nth_repeat).
  rewrite Ez in *. split; [intros Hm; apply Ha; now right|]. intros Hm files Hf. apply Hb; auto. apply (Permutation_in _ (Permutation_sym Pk)), Ksb. eauto.
Qed.
End AccumFacts.
