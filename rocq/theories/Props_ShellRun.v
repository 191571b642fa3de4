(** * Property C80: the rows of shell mode do not depend on each other. Floats are reals (see RealBase.v). *)
From Coq Require Import Reals Lra Lia ZArith List Bool Permutation.
From Verif Require Import ShellRunModel SmoothSpec LoopFacts MatModel InterpProofs SplashProofs RingProofs LosSpec LosProofs10 ShellRunProofs ShellRunProofs2 ShellRunProofs3 RockstarProofs KdeProofs4 CmdProofs.
Import List ListNotations.
Local Open Scope R_scope.

(** ** C80 *)
(** A configuration that the analysis can work with: unit ring normals, an odd smoothing window of at least five and fewer points than radial
    bins, and radii 0 < RMinMult < RMaxMult. *)
Definition usable_config (c : ShellConf) : Prop :=
  Forall (fun v : vec => let '(x, y, z) := v in x * x + y * y + z * z = 1) (sc_norms c) /\
  (sc_window c mod 2 = 1)%nat /\ (4 < sc_window c < sc_bins c)%nat /\ (0 < sc_spokes c)%nat /\
  0 < sc_rMinMult c < c_rMaxMult (sc_load c) /\ 0 <= c_rKernelMult (sc_load c) /\ (0 < c_sf3 (sc_load c))%nat.

(** A snapshot the halo (x, r) can be analysed in: there are files, every file has a mass for each particle, all particles and the halo are in
    the box, and the halo with its kernels is at most half as wide as the box. *)
Definition usable_snapshot (c : ShellConf) (files : list PFile) (xr : vec * R) : Prop :=
  files <> [] /\
  forall f, In f files ->
    0 < f_tw f /\ (length (f_xs f) <= length (f_ms f))%nat /\ Forall (in_box (f_tw f)) (f_xs f) /\ in_box (f_tw f) (fst xr) /\
    snd xr * c_rMaxMult (sc_load c) + snd xr * c_rKernelMult (sc_load c) <= f_tw f / 2.

(** What is assumed of a catalogue and the particle data. The last part says that all snapshots have the same mean density (of the files
    first in their list): without it the rows do depend on each other, see C104_shell_background_refuted. *)
Definition usable_catalogue (c : ShellConf) (read : Z -> option (list PFile)) (ids snaps : list Z) (coords : list (vec * R)) : Prop :=
  length ids = length snaps /\ length coords = length snaps /\ snaps <> [] /\ ~ In (-1)%Z snaps /\
  (forall i files, (i < length snaps)%nat -> read (nth i snaps 0%Z) = Some files -> usable_snapshot c files (nth i coords ((0, 0, 0), 0))) /\
  (forall s t f fs g gs, In s snaps -> In t snaps -> read s = Some (f :: fs) -> read t = Some (g :: gs) -> f_rhoM f = f_rhoM g).

Lemma rows_characterised B inverse c workers enum read ids snaps coords : usable_config c -> usable_catalogue c read ids snaps coords ->
  (0 < workers)%nat -> (forall l, Permutation (enum l) l) ->
  (shell_rows B inverse c workers enum read ids snaps coords = None /\
     exists i, (i < length snaps)%nat /\ row_of B inverse c read (nth i snaps 0%Z) (nth i coords ((0, 0, 0), 0)) = None) \/
  exists out, shell_rows B inverse c workers enum read ids snaps coords = Some out /\ length out = length snaps /\
    forall i, (i < length snaps)%nat -> row_of B inverse c read (nth i snaps 0%Z) (nth i coords ((0, 0, 0), 0)) = Some (nth i out []).
Proof.
  intros (Hnorms & Hodd & Hwin & Hn & Hmult & Hkern & Hsf) (Li & Lc & Hne & Hm1 & Hfiles & Hbg) Hw Hen.
  apply (rows_ok B inverse c); auto.
  - revert Hnorms. apply Forall_impl. intros ((x & y) & z) Hv. exact Hv.
  - intros i Hi. split; [intros E; apply Hm1; rewrite <- E; apply nth_In; exact Hi|]. intros files Er. destruct (Hfiles i files Hi Er) as (A & F). split; [exact A|].
    unfold fits. apply Forall_forall. intros f Hf. destruct (F f Hf) as (F1 & F2 & F3 & F4 & F5). split; [|auto]. split; [exact F1|]. auto.
  - intros i j f fs g gs Hi Hj. apply Hbg; apply nth_In; assumption.
Qed.

Lemma usable_single c read ids snaps coords k : usable_catalogue c read ids snaps coords -> (k < length snaps)%nat ->
  usable_catalogue c read [nth k ids 0%Z] [nth k snaps 0%Z] [nth k coords ((0, 0, 0), 0)].
Proof.
  intros (Li & Lc & Hne & Hm1 & Hfiles & Hbg) Hk. split; [reflexivity|]. split; [reflexivity|]. split; [discriminate|].
  assert (Hin : In (nth k snaps 0%Z) snaps) by (apply nth_In; exact Hk).
  split; [intros [E|[]]; apply Hm1; rewrite <- E; exact Hin|]. split.
  - intros [|i] files Hi Er; cbn in *; [|lia]. apply Hfiles; assumption.
  - intros s t f fs g gs [<-|[]] [<-|[]]. apply Hbg; exact Hin.
Qed.

(** The run on a catalogue returns the rows that runs on its lines alone return, in the order of the lines, whatever the numbers of workers of
    these runs and the orders in which Go enumerates maps; it fails if and only if one of those runs fails. *)
Theorem C80_rows : forall B inverse c read ids snaps coords, usable_config c -> usable_catalogue c read ids snaps coords ->
  forall workers enum, (0 < workers)%nat -> (forall l, Permutation (enum l) l) ->
  forall workers' enum', (forall k, 0 < workers' k)%nat -> (forall k l, Permutation (enum' k l) l) ->
  shell_rows B inverse c workers enum read ids snaps coords =
  mapo (fun k => do rows <- shell_rows B inverse c (workers' k) (enum' k) read [nth k ids 0%Z] [nth k snaps 0%Z] [nth k coords ((0, 0, 0), 0)]; nth_error rows 0)
    (seq 0 (length snaps)).
Proof.
  intros B inverse c read ids snaps coords Hc Hcat workers enum Hw Hen workers' enum' Hw' Hen'.
  assert (H1 : forall k, (k < length snaps)%nat ->
    (do rows <- shell_rows B inverse c (workers' k) (enum' k) read [nth k ids 0%Z] [nth k snaps 0%Z] [nth k coords ((0, 0, 0), 0)]; nth_error rows 0) =
    row_of B inverse c read (nth k snaps 0%Z) (nth k coords ((0, 0, 0), 0))).
  { intros k Hk. destruct (rows_characterised B inverse c (workers' k) (enum' k) read _ _ _ Hc (usable_single _ _ _ _ _ k Hcat Hk) (Hw' k) (Hen' k)) as [(-> & i & Hi & E)|(out & -> & Lo & H)].
    - cbn in Hi. destruct i; [|lia]. symmetry. exact E.
    - specialize (H 0%nat ltac:(cbn; lia)). cbn [nth] in H. rewrite H. destruct out; [discriminate|reflexivity]. }
  destruct (rows_characterised B inverse c workers enum read ids snaps coords Hc Hcat Hw Hen) as [(-> & i & Hi & E)|(out & -> & Lo & H)].
  - symmetry. apply (mapo_none _ _ i); [apply in_seq; lia|]. rewrite H1 by exact Hi. exact E.
  - rewrite (mapo_map _ (fun i => nth i out [])).
    + f_equal. rewrite <- Lo. apply (nth_ext _ _ [] (nth 0 out [])); [now rewrite map_length, seq_length|]. intros k Hk. rewrite (map_nth (fun i => nth i out [])), seq_nth by exact Hk. reflexivity.
    + intros k Hk. apply in_seq in Hk. rewrite H1 by lia. apply H. lia.
Qed.
Print Assumptions C80_rows.

(** In particular two machines with different numbers of cores print the same rows. *)
Theorem C80_threads : forall B inverse c read ids snaps coords, usable_config c -> usable_catalogue c read ids snaps coords ->
  forall workers enum workers' enum', (0 < workers)%nat -> (0 < workers')%nat -> (forall l, Permutation (enum l) l) -> (forall l, Permutation (enum' l) l) ->
  shell_rows B inverse c workers enum read ids snaps coords = shell_rows B inverse c workers' enum' read ids snaps coords.
Proof.
  intros B inverse c read ids snaps coords Hc Hcat workers enum workers' enum' Hw Hw' Hen Hen'.
  rewrite (C80_rows B inverse c read ids snaps coords Hc Hcat workers enum Hw Hen (fun _ => 1%nat) (fun _ l => l)); [|lia|intros; apply Permutation_refl].
  symmetry. apply C80_rows; auto.
Qed.
Print Assumptions C80_threads.

(** And a catalogue with its lines in another order gives the same rows in that order. *)
Theorem C80_order : forall B inverse c read ids snaps coords ids' snaps' coords' p workers enum, usable_config c ->
  usable_catalogue c read ids snaps coords -> usable_catalogue c read ids' snaps' coords' -> (0 < workers)%nat -> (forall l, Permutation (enum l) l) ->
  length snaps' = length snaps -> (forall k, (k < length snaps)%nat -> (p k < length snaps)%nat /\ nth k ids' 0%Z = nth (p k) ids 0%Z /\ nth k snaps' 0%Z = nth (p k) snaps 0%Z /\
     nth k coords' ((0, 0, 0), 0) = nth (p k) coords ((0, 0, 0), 0)) ->
  forall out out', shell_rows B inverse c workers enum read ids snaps coords = Some out -> shell_rows B inverse c workers enum read ids' snaps' coords' = Some out' ->
  length out' = length out /\ forall k, (k < length out)%nat -> nth k out' [] = nth (p k) out [].
Proof.
  intros B inverse c read ids snaps coords ids' snaps' coords' p workers enum Hc H1 H2 Hw Hen L Hp out out' E1 E2.
  destruct (rows_characterised B inverse c workers enum read ids snaps coords Hc H1 Hw Hen) as [(X & _)|(o1 & X1 & L1 & R1)]; [congruence|].
  destruct (rows_characterised B inverse c workers enum read ids' snaps' coords' Hc H2 Hw Hen) as [(X & _)|(o2 & X2 & L2 & R2)]; [congruence|].
  rewrite X1 in E1. rewrite X2 in E2. injection E1 as <-. injection E2 as <-. split; [lia|]. intros k Hk.
  destruct (Hp k ltac:(lia)) as (P1 & _ & P2 & P3). specialize (R2 k ltac:(lia)). rewrite P2, P3, (R1 (p k) P1) in R2. congruence.
Qed.
Print Assumptions C80_order.

(** Two halos in two snapshots of one particle each, on two rings. *)
Example C80_nonvacuous : exists c read ids snaps coords, usable_config c /\ usable_catalogue c read ids snaps coords /\ length snaps = 2%nat /\
  nth 0 snaps 0%Z <> nth 1 snaps 0%Z /\ (exists f, read (nth 0 snaps 0%Z) = Some [f] /\ f_xs f <> []) /\ (exists f, read (nth 1 snaps 0%Z) = Some [f] /\ f_xs f <> []).
Proof.
  exists (mkShellConf (mkLoadConf 1 (2 / 10) 3) (1 / 2) [(1, 0, 0); (0, 1, 0)] 256 256 121 0 3 10 3 1 (1 / 2)).
  exists (fun s => if (s =? 100)%Z then Some [mkPFile (0, 0, 0) (100, 100, 100) 100 1 [(51, 50, 50)] [1]]
                   else if (s =? 50)%Z then Some [mkPFile (0, 0, 0) (100, 100, 100) 100 1 [(20, 21, 20)] [1]] else None).
  exists [7; 8]%Z, [100; 50]%Z, [((50, 50, 50), 2); ((20, 20, 20), 1)].
  split; [|split; [|split; [reflexivity|split; [cbn; lia|split; eexists; (split; [reflexivity|discriminate])]]]].
  - unfold usable_config. cbn [sc_norms sc_window sc_bins sc_spokes sc_rMinMult sc_load c_rMaxMult c_rKernelMult c_sf3]. repeat split; try (apply Nat.ltb_lt; reflexivity); try lra.
    repeat constructor; lra.
  - split; [reflexivity|]. split; [reflexivity|]. split; [discriminate|]. split; [intros [E|[E|[]]]; discriminate|]. split.
    + intros [|[|i]] files Hi Er; [| |cbn in Hi; lia]; cbn in Er; injection Er as <-; (split; [discriminate|]); intros f [<-|[]]; cbn [nth fst snd f_tw f_xs f_ms sc_load c_rMaxMult c_rKernelMult];
        (split; [lra|]); (split; [cbn; lia|]); (split; [repeat constructor; lra|]); (split; [unfold in_box; lra|lra]).
    + intros s t f fs g gs [<-|[<-|[]]] [<-|[<-|[]]] E1 E2; cbn in E1, E2; injection E1 as <- _; injection E2 as <- _; reflexivity.
Qed.
