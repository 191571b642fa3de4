(** * C28, C29, C51: worker groups, for every interleaving. *)
From Coq Require Import Lia Arith Permutation ZArith.
From Verif Require Import ParModel ListFacts ParProofs.
Import List ListNotations.
Local Open Scope nat_scope.

(** ** Specification *)
(** The total of a list in a commutative monoid, by itself. *)
Definition sum_of {M} (add : M -> M -> M) (zero : M) (l : list M) : M := fold_right add zero l.

(** ** C29 *)
(** LockGroup of W workers (utils.go:61-96): worker w does [prog w] (any actions whatever) and unlocks; the caller of
    Synchronize receives W times. [s] is any state any interleaving can reach, after k steps:
    - if Synchronize has returned, every worker has unlocked;
    - if it has not, something can happen;
    - nothing can go on for ever: k is bounded by the amount of work, and Synchronize has returned exactly when the
      bound is reached. *)
Theorem C29_synchronize : forall (A : Type) (W : nat) (prog : nat -> list (action A)) (mem0 : nat -> A) k s,
  steps W W (fun _ _ => true) false k (start W prog mem0) s ->
  (finished W s -> forall w, w < W -> nth_error (workers s) w = Some Sent) /\
  (~ finished W s -> exists s', step W W (fun _ _ => true) false s s') /\
  (k <= list_sum (map (fun w => length (prog w) + 2) (seq 0 W))) /\
  (finished W s <-> k = list_sum (map (fun w => length (prog w) + 2) (seq 0 W))).
Proof.
  intros A W prog mem0 k s H.
  pose proof (measure_steps W W (fun _ _ => true) false prog mem0 (le_n _) _ _ H) as Hk.
  rewrite (measure_start W W prog mem0 (le_n _)) in Hk.
  split; [|split; [|split; [|split]]].
  - intros Hf. exact (proj1 (finished_all W W _ _ _ _ (le_n _) _ _ H Hf)).
  - intros Hf. eapply progress; eauto.
  - lia.
  - intros Hf. pose proof (proj2 (proj2 (finished_all W W _ _ _ _ (le_n _) _ _ H Hf))) as E. lia.
  - intros E. destruct (Nat.eq_dec (length (received s)) W) as [Hf|Hf]; [exact Hf|]. exfalso.
    destruct (progress W W (fun _ _ => true) false prog mem0 (le_n _) _ _ H Hf) as [s' Hs].
    apply (measure_step W W _ _ (le_n _)) in Hs. lia.
Qed.
Print Assumptions C29_synchronize.

(** From every reachable state Synchronize can be reached, and all maximal executions end there (by the bound above). *)
Theorem C29_always_returns : forall (A : Type) (W : nat) (prog : nat -> list (action A)) (mem0 : nat -> A) k s,
  steps W W (fun _ _ => true) false k (start W prog mem0) s ->
  exists k' s', steps W W (fun _ _ => true) false k' s s' /\ finished W s'.
Proof.
  intros A W prog mem0 k s H. remember (measure s) as m eqn:Em. revert k s H Em.
  induction m as [m IH] using lt_wf_ind. intros k s H Em.
  destruct (Nat.eq_dec (length (received s)) W) as [Hf|Hf]; [exists 0, s; split; [constructor|exact Hf]|].
  destruct (progress W W (fun _ _ => true) false prog mem0 (le_n _) _ _ H Hf) as [s' Hs].
  pose proof (measure_step _ _ _ _ (le_n _) _ _ Hs) as Hm.
  destruct (IH (measure s') ltac:(lia) (S k) s') as (k' & s'' & H' & Hf'); [eapply steps_next; eauto|reflexivity|].
  exists (S k'), s''. split; [|exact Hf'].
  clear - Hs H'. induction H' as [s'|j s' t t' H1 IH1 H2]; [eapply steps_next; [constructor|exact Hs]|].
  eapply steps_next; [apply IH1; exact Hs|exact H2].
Qed.
Print Assumptions C29_always_returns.

(** ** C28 *)
(** Every particle is the business of exactly one worker, and is met once. *)
Theorem C28_partition : forall W n, 1 <= W ->
  Permutation (flat_map (fun w => stride w W n) (seq 0 W)) (seq 0 n).
Proof. exact stride_partition1. Qed.
Print Assumptions C28_partition.

Lemma fold_left_sum {M} (add : M -> M -> M) zero : (forall a b c, add a (add b c) = add (add a b) c) ->
  (forall a b, add a b = add b a) -> (forall a, add zero a = a) ->
  forall l a, fold_left add l a = add a (sum_of add zero l).
Proof.
  intros Ha Hc H0. unfold sum_of. induction l as [|x l IH]; intros a; cbn; [now rewrite Hc, H0|]. rewrite IH. now rewrite Ha.
Qed.
Lemma sum_of_perm {M} (add : M -> M -> M) zero : (forall a b c, add a (add b c) = add (add a b) c) ->
  (forall a b, add a b = add b a) -> forall l l', Permutation l l' -> sum_of add zero l = sum_of add zero l'.
Proof.
  intros Ha Hc l l' H. unfold sum_of. induction H; cbn; [easy|now rewrite IHPermutation| |congruence].
  rewrite !Ha. f_equal. apply Hc.
Qed.
Lemma sum_of_app {M} (add : M -> M -> M) zero : (forall a b c, add a (add b c) = add (add a b) c) ->
  (forall a b, add a b = add b a) -> (forall a, add zero a = a) ->
  forall l l', sum_of add zero (l ++ l') = add (sum_of add zero l) (sum_of add zero l').
Proof.
  intros Ha Hc H0. unfold sum_of. induction l as [|x l IH]; intros l'; cbn; [now rewrite H0|]. now rewrite IH, Ha.
Qed.

Lemma mass_prog_val {M} (add : M -> M -> M) (zero : M) (inside : nat -> bool) (ms : nat -> M) :
  (forall a b c, add a (add b c) = add (add a b) c) -> (forall a b, add a b = add b a) -> (forall a, add zero a = a) ->
  forall w l v, cell_val w (map (fun i => (w, fun sum => if inside i then add sum (ms i) else sum)) l) v =
    add v (sum_of add zero (map ms (filter inside l))).
Proof.
  intros Ha Hc H0 w. induction l as [|i l IH]; intros v; cbn; [now rewrite Hc, H0|]. rewrite Nat.eqb_refl.
  unfold cell_val in IH. rewrite IH. destruct (inside i); cbn; [now rewrite Ha|easy].
Qed.

Lemma filter_flat_map {X Y} (p : Y -> bool) (f : X -> list Y) l :
  filter p (flat_map f l) = flat_map (fun x => filter p (f x)) l.
Proof. induction l as [|a l IH]; cbn; [easy|]. now rewrite filter_app, IH. Qed.
Lemma map_flat_map {X Y Z} (g : Y -> Z) (f : X -> list Y) l : map g (flat_map f l) = flat_map (fun x => map g (f x)) l.
Proof. induction l as [|a l IH]; cbn; [easy|]. now rewrite map_app, IH. Qed.
Lemma Permutation_filter {X} (p : X -> bool) l l' : Permutation l l' -> Permutation (filter p l) (filter p l').
Proof.
  intros H. induction H; cbn; [constructor| | |etransitivity; eassumption].
  - destruct (p x); [now constructor|easy].
  - destruct (p x), (p y); try reflexivity. apply perm_swap.
Qed.
Lemma sum_of_flat_map {M X} (add : M -> M -> M) zero : (forall a b c, add a (add b c) = add (add a b) c) ->
  (forall a b, add a b = add b a) -> (forall a, add zero a = a) -> forall (f : X -> list M) l,
  sum_of add zero (flat_map f l) = sum_of add zero (map (fun x => sum_of add zero (f x)) l).
Proof.
  intros Ha Hc H0 f. induction l as [|a l IH]; [easy|]. cbn [flat_map map]. rewrite (sum_of_app add zero Ha Hc H0). now rewrite IH.
Qed.

(** massContained: for any number of workers and any interleaving, the returned sum is the total mass of the particles
    inside, in any arithmetic whose addition is associative and commutative. *)
Theorem C28_mass : forall (M : Type) (add : M -> M -> M) (zero : M),
  (forall a b c, add a (add b c) = add (add a b) c) -> (forall a b, add a b = add b a) -> (forall a, add zero a = a) ->
  forall (inside : nat -> bool) (ms : nat -> M) (n W : nat) k s, 1 <= W ->
  steps W W (fun w mem => mem w) true k (start W (mass_prog add inside ms n W) (fun _ => zero)) s ->
  finished W s ->
  mass_total add zero (received s) = sum_of add zero (map ms (filter inside (seq 0 n))).
Proof.
  intros M add zero Ha Hc H0 inside ms n W k s HW H Hf.
  destruct (parallel_result W W (fun w (mem : nat -> M) => mem w) true (mass_prog add inside ms n W) (fun _ => zero)
    (le_n W) (fun c => c)) with (k := k) (s := s) as [_ Hp]; [| |exact H|exact Hf|].
  - intros w a Ha'. apply in_map_iff in Ha'. destruct Ha' as [i [<- _]]. reflexivity.
  - intros w m m' Hm. now apply Hm.
  - unfold mass_total. rewrite (fold_left_sum add zero Ha Hc H0), H0. rewrite (sum_of_perm add zero Ha Hc _ _ Hp).
    erewrite map_ext.
    2:{ intros w. rewrite exec_cell. unfold mass_prog. rewrite (mass_prog_val add zero _ _ Ha Hc H0). rewrite H0. reflexivity. }
    rewrite <- (sum_of_flat_map add zero Ha Hc H0).
    rewrite <- map_flat_map, <- filter_flat_map.
    apply (sum_of_perm add zero Ha Hc). apply Permutation_map, Permutation_filter. now apply stride_partition1.
Qed.
Print Assumptions C28_mass.

Lemma ids_prog_val {I} (keep : nat -> bool) (pIDs : nat -> I) : forall w l v,
  cell_val w (map (fun i => (w, fun buf => if keep i then buf ++ [pIDs i] else buf)) l) v = v ++ map pIDs (filter keep l).
Proof.
  intros w. induction l as [|i l IH]; intros v; cbn; [now rewrite app_nil_r|]. rewrite Nat.eqb_refl.
  unfold cell_val in IH. rewrite IH. destruct (keep i); cbn; [now rewrite <- app_assoc|easy].
Qed.
Lemma fold_left_app_concat {I} (l : list (list I)) : forall o, fold_left (fun o b => o ++ b) l o = o ++ concat l.
Proof. induction l as [|a l IH]; intros o; cbn; [now rewrite app_nil_r|]. now rewrite IH, <- app_assoc. Qed.
Lemma Permutation_concat {X} (l l' : list (list X)) : Permutation l l' -> Permutation (concat l) (concat l').
Proof.
  intros H. induction H; cbn; [constructor| | |etransitivity; eassumption].
  - now apply Permutation_app_head.
  - rewrite !app_assoc. apply Permutation_app_tail, Permutation_app_comm.
Qed.

(** appendShellParticles: what was there stays in front, and what is added is the IDs of the particles selected, each
    as often as in the input, in some order. *)
Theorem C28_ids : forall (I : Type) (keep : nat -> bool) (pIDs : nat -> I) (out : list I) (n W : nat) k s, 1 <= W ->
  steps W W (fun w mem => mem w) true k (start W (ids_prog keep pIDs n W) (fun _ => [])) s ->
  finished W s ->
  exists new, ids_total out (received s) = out ++ new /\ Permutation new (map pIDs (filter keep (seq 0 n))).
Proof.
  intros I keep pIDs out n W k s HW H Hf.
  destruct (parallel_result W W (fun w (mem : nat -> list I) => mem w) true (ids_prog keep pIDs n W) (fun _ => [])
    (le_n W) (fun c => c)) with (k := k) (s := s) as [_ Hp]; [| |exact H|exact Hf|].
  - intros w a Ha'. apply in_map_iff in Ha'. destruct Ha' as [i [<- _]]. reflexivity.
  - intros w m m' Hm. now apply Hm.
  - unfold ids_total. rewrite fold_left_app_concat. eexists. split; [reflexivity|].
    etransitivity; [apply Permutation_concat; exact Hp|].
    erewrite map_ext.
    2:{ intros w. rewrite exec_cell. unfold ids_prog. rewrite ids_prog_val. cbn [app]. reflexivity. }
    rewrite <- flat_map_concat_map, <- map_flat_map, <- filter_flat_map.
    apply Permutation_map, Permutation_filter. now apply stride_partition1.
Qed.
Print Assumptions C28_ids.

(** loadSphereVecs: when the workers have been waited for, the particles inserted into the W halos are, together, the
    intersecting particles whose index is a multiple of the cube of the subsampling factor, each once. *)
Theorem C28_shell : forall (intr : nat -> bool) (sf3 n W : nat) k s, 1 <= W -> 1 <= sf3 ->
  steps W W (fun _ _ => true) true k (start W (shell_prog intr sf3 n W) (fun _ => [])) s ->
  finished W s ->
  Permutation (flat_map (memory s) (seq 0 W)) (filter (fun i => intr i && (i mod sf3 =? 0)) (seq 0 n)).
Proof.
  intros intr sf3 n W k s HW Hsf H Hf.
  assert (Hown : forall w (a : action (list nat)), In a (shell_prog intr sf3 n W w) -> fst a = w).
  { intros w a Ha'. apply in_map_iff in Ha'. destruct Ha' as [i [<- _]]. reflexivity. }
  destruct (parallel_result W W (fun w (mem : nat -> list nat) => true) true (shell_prog intr sf3 n W) (fun _ => [])
    (le_n W) (fun c => c)) with (k := k) (s := s) as [Hm _]; [exact Hown| |exact H|exact Hf|].
  - reflexivity.
  - assert (E : flat_map (memory s) (seq 0 W) =
      flat_map (fun w => filter intr (stride (w * sf3) (W * sf3) n)) (seq 0 W)).
    { rewrite !flat_map_concat_map. f_equal. apply map_ext_in. intros w Hw. rewrite Hm, exec_cell.
      rewrite (cell_val_concat _ w w); [|intros w' a Ha Hc; rewrite <- Hc; symmetry; now apply Hown|apply seq_NoDup|exact Hw].
      unfold shell_prog.
      etransitivity; [exact (ids_prog_val intr (fun i => i) w _ [])|]. cbn [app]. now rewrite map_id. }
    rewrite E, <- filter_flat_map.
    etransitivity; [apply Permutation_filter; apply stride_partition; lia|].
    assert (Ef : forall l, filter intr (filter (fun i => i mod sf3 =? 0) l) = filter (fun i => intr i && (i mod sf3 =? 0)) l).
    { clear. induction l as [|a l IH]; cbn; [easy|]. destruct (a mod sf3 =? 0) eqn:E1; cbn; rewrite IH.
      - now rewrite Bool.andb_true_r.
      - now rewrite Bool.andb_false_r. }
    now rewrite Ef.
Qed.
Print Assumptions C28_shell.

(** ** C51 *)
Lemma stride_mod w W n i : 1 <= W -> w < W -> In i (stride w W n) -> i mod W = w.
Proof.
  intros HW Hw Hi. apply stride_in in Hi; [|lia]. destruct Hi as [_ [k ->]].
  rewrite Nat.mod_add by lia. apply Nat.mod_small. lia.
Qed.

Lemma stride_big w W n i : 1 <= W -> W <= w -> In i (stride w W n) -> W <= i.
Proof. intros HW Hw Hi. apply stride_in in Hi; [|lia]. destruct Hi as [_ [k ->]]. lia. Qed.

Lemma potential_one {A} (used : nat -> bool) (f : nat -> nat -> A -> A) W w ncell i v p :
  1 <= W -> NoDup (stride w W ncell) ->
  cell_val i (map (fun i => (i, f p i)) (stride w W ncell)) v =
    if existsb (Nat.eqb i) (stride w W ncell) then f p i v else v.
Proof.
  intros _. clear. generalize (stride w W ncell) as l. intros l Hnd. revert v. induction l as [|a l IH]; intros v; cbn; [easy|].
  inversion Hnd; subst. destruct (Nat.eqb_spec i a) as [->|Hne]; cbn.
  - rewrite <- (cell_val_other a (map (fun i => (i, f p i)) l) (f p a v)) at 2; [reflexivity|].
    intros b Hb. apply in_map_iff in Hb. destruct Hb as [j [<- Hj]]. cbn. intros ->. contradiction.
  - apply (IH H2).
Qed.

(** potential mode: no element of a potential grid is touched by two workers, and whatever the interleaving each element
    ends with the value it gets from the used particles one after another - bit for bit, for any update function. *)
Theorem C51_potential : forall (A : Type) (used : nat -> bool) (f : nat -> nat -> A -> A) (np ncell W : nat) (mem0 : nat -> A),
  1 <= W ->
  (forall w w' a a', w < W -> w' < W -> In a (potential_prog used f np ncell W w) ->
     In a' (potential_prog used f np ncell W w') -> fst a = fst a' -> w = w') /\
  forall k s,
  steps W W (fun _ _ => true) false k (start W (potential_prog used f np ncell W) mem0) s -> finished W s ->
  forall i, memory s i =
    if i <? ncell then fold_left (fun v p => f p i v) (filter used (seq 0 np)) (mem0 i) else mem0 i.
Proof.
  intros A used f np ncell W mem0 HW.
  assert (Hin : forall w a, In a (potential_prog used f np ncell W w) -> In (fst a) (stride w W ncell)).
  { intros w a Ha. apply in_flat_map in Ha. destruct Ha as [p [_ Ha]]. destruct (used p); [|easy].
    apply in_map_iff in Ha. destruct Ha as [i [<- Hi]]. exact Hi. }
  split.
  { intros w w' a a' Hw Hw' Ha Ha' E. apply Hin in Ha, Ha'. rewrite E in Ha.
    rewrite <- (stride_mod w W ncell (fst a')) by easy. now apply stride_mod with (n := ncell). }
  intros k s H Hf i.
  (* the programs of workers that do not exist are cut off *)
  set (prog := fun w => if w <? W then potential_prog used f np ncell W w else []).
  assert (Hst : start (B:=bool) W (potential_prog used f np ncell W) mem0 = start W prog mem0).
  { unfold start. f_equal. apply map_ext_in. intros w Hw. apply in_seq in Hw. unfold prog.
    destruct (Nat.ltb_spec w W); [easy|lia]. }
  rewrite Hst in H.
  destruct (parallel_result W W (fun w (mem : nat -> A) => true) false prog mem0 (le_n W) (fun c => c mod W))
    with (k := k) (s := s) as [Hm _]; [|reflexivity|exact H|exact Hf|].
  { intros w a Ha. unfold prog in Ha. destruct (Nat.ltb_spec w W) as [Hw|Hw]; [|easy]. apply Hin in Ha.
    now apply stride_mod with (n := ncell). }
  rewrite Hm, exec_cell.
  pose proof (Nat.mod_upper_bound i W ltac:(lia)) as Hmod.
  rewrite (cell_val_concat _ i (i mod W)).
  2:{ intros w' a Ha Hc. unfold prog in Ha. destruct (Nat.ltb_spec w' W) as [Hw|Hw]; [|easy]. apply Hin in Ha.
      rewrite <- Hc. symmetry. now apply stride_mod with (n := ncell). }
  2:{ apply seq_NoDup. }
  2:{ apply in_seq. lia. }
  unfold prog. destruct (Nat.ltb_spec (i mod W) W) as [_|]; [|lia].
  unfold potential_prog. generalize (seq 0 np) as l. intros l. generalize (mem0 i) as v.
  assert (Hex : existsb (Nat.eqb i) (stride (i mod W) W ncell) = (i <? ncell)).
  { destruct (Nat.ltb_spec i ncell) as [Hi|Hi].
    - apply existsb_exists. exists i. split; [|apply Nat.eqb_refl]. apply stride_in; [lia|]. split; [easy|].
      exists (i / W). pose proof (Nat.div_mod i W). lia.
    - destruct (existsb _ _) eqn:E; [|easy]. apply existsb_exists in E. destruct E as [j [Hj E]].
      apply Nat.eqb_eq in E. subst j. apply stride_in in Hj; [|lia]. lia. }
  induction l as [|p l IH]; intros v; cbn [flat_map filter fold_left]; [now destruct (i <? ncell)|].
  etransitivity; [exact (cell_val_app i _ _ v)|]. destruct (used p).
  - rewrite (potential_one used f W _ ncell i v p HW) by (apply stride_nodup; lia). rewrite IH, Hex.
    cbn [fold_left]. now destruct (i <? ncell).
  - rewrite IH. reflexivity.
Qed.
Print Assumptions C51_potential.

Lemma nth_inj (l : list nat) i j : NoDup l -> i < length l -> j < length l -> nth i l 0 = nth j l 0 -> i = j.
Proof. intros H Hi Hj E. eapply NoDup_nth; eauto. Qed.

(** prof mode, one file: no halo's profile is touched by two workers, and whatever the interleaving each halo that
    intersects the file gets its points inserted once and the others none - bit for bit, for any insertion. *)
Theorem C51_prof : forall (A : Type) (insert : nat -> A -> A) (idxs intr : list nat) (W : nat) (mem0 : nat -> A),
  1 <= W -> NoDup idxs -> NoDup intr -> (forall j, In j intr -> j < length idxs) ->
  (forall w w' a a', w < W -> w' < W -> In a (prof_prog insert idxs intr W w) ->
     In a' (prof_prog insert idxs intr W w') -> fst a = fst a' -> w = w') /\
  forall k s,
  steps W W (fun _ _ => true) false k (start W (prof_prog insert idxs intr W) mem0) s -> finished W s ->
  (forall j, In j intr -> memory s (nth j idxs 0) = insert j (mem0 (nth j idxs 0))) /\
  (forall h, (forall j, In j intr -> nth j idxs 0 <> h) -> memory s h = mem0 h).
Proof.
  intros A insert idxs intr W mem0 HW Hnd1 Hnd2 Hlt.
  set (cell := fun jj => nth (nth jj intr 0) idxs 0).
  assert (Hcell : forall a b, a < length intr -> b < length intr -> cell a = cell b -> a = b).
  { intros a b Ha Hb E. unfold cell in E. apply nth_inj in E; [|exact Hnd1|apply Hlt; now apply nth_In..].
    now apply nth_inj in E. }
  assert (Hin : forall w a, In a (prof_prog insert idxs intr W w) -> exists jj, In jj (stride w W (length intr)) /\ fst a = cell jj).
  { intros w a Ha. apply in_map_iff in Ha. destruct Ha as [jj [<- Hj]]. now exists jj. }
  assert (Hlen : forall w jj, In jj (stride w W (length intr)) -> jj < length intr).
  { intros w jj Hj. apply stride_in in Hj; [easy|lia]. }
  assert (Hrace : forall w w' a a', w < W -> w' < W -> In a (prof_prog insert idxs intr W w) ->
     In a' (prof_prog insert idxs intr W w') -> fst a = fst a' -> w = w').
  { intros w w' a a' Hw Hw' Ha Ha' E. apply Hin in Ha, Ha'. destruct Ha as [jj [Hj Ea]], Ha' as [jj' [Hj' Ea']].
    rewrite Ea, Ea' in E. apply Hcell in E; [|eauto|eauto]. subst jj'.
    rewrite <- (stride_mod w W (length intr) jj) by easy. now apply stride_mod with (n := length intr). }
  split; [exact Hrace|]. intros k s H Hf.
  set (prog := fun w => if w <? W then prof_prog insert idxs intr W w else []).
  assert (Hst : start (B:=bool) W (prof_prog insert idxs intr W) mem0 = start W prog mem0).
  { unfold start. f_equal. apply map_ext_in. intros w Hw. apply in_seq in Hw. unfold prog.
    destruct (Nat.ltb_spec w W); [easy|lia]. }
  rewrite Hst in H.
  (* the owner of a cell: the worker one of whose actions is on it *)
  set (owner := fun c => match find (fun jj => cell jj =? c) (seq 0 (length intr)) with Some jj => jj mod W | None => 0 end).
  assert (Hown : forall jj, jj < length intr -> owner (cell jj) = jj mod W).
  { intros jj Hjj. unfold owner. destruct (find _ _) as [j|] eqn:E.
    - apply find_some in E. destruct E as [E1 E2]. apply in_seq in E1. apply Nat.eqb_eq in E2.
      apply Hcell in E2; [|lia|lia]. now subst.
    - exfalso. apply find_none with (x := jj) in E; [|apply in_seq; lia]. now rewrite Nat.eqb_refl in E. }
  destruct (parallel_result W W (fun w (mem : nat -> A) => true) false prog mem0 (le_n W) owner)
    with (k := k) (s := s) as [Hm _]; [|reflexivity|exact H|exact Hf|].
  { intros w a Ha. unfold prog in Ha. destruct (Nat.ltb_spec w W) as [Hw|Hw]; [|easy]. apply Hin in Ha.
    destruct Ha as [jj [Hj ->]]. rewrite Hown by eauto. now apply stride_mod with (n := length intr). }
  split.
  - intros j Hj. apply (In_nth _ _ 0) in Hj. destruct Hj as [jj [Hjj <-]]. change (nth (nth jj intr 0) idxs 0) with (cell jj).
    rewrite Hm, exec_cell. pose proof (Nat.mod_upper_bound jj W ltac:(lia)) as Hmod.
    rewrite (cell_val_concat _ (cell jj) (jj mod W)).
    2:{ intros w' a Ha Hc. unfold prog in Ha. destruct (Nat.ltb_spec w' W) as [Hw|Hw]; [|easy]. apply Hin in Ha.
        destruct Ha as [jj' [Hj' Ea]]. rewrite Ea in Hc. apply Hcell in Hc; [|eauto|easy]. subst jj'.
        symmetry. now apply stride_mod with (n := length intr). }
    2:{ apply seq_NoDup. }
    2:{ apply in_seq. lia. }
    unfold prog. destruct (Nat.ltb_spec (jj mod W) W) as [_|]; [|lia]. unfold prof_prog.
    assert (Hjin : In jj (stride (jj mod W) W (length intr))).
    { apply stride_in; [lia|]. split; [easy|]. exists (jj / W). pose proof (Nat.div_mod jj W). lia. }
    pose proof (stride_nodup (jj mod W) W (length intr) HW) as Hnd.
    assert (Hall : forall j, In j (stride (jj mod W) W (length intr)) -> j < length intr) by (intros; eauto).
    revert Hjin Hnd Hall. generalize (stride (jj mod W) W (length intr)) as l. generalize (mem0 (cell jj)) as v.
    intros v l. revert v. induction l as [|a l IH]; intros v Hjin Hnd Hall; [easy|]. inversion Hnd; subst.
    cbn [map].
    etransitivity; [exact (cell_val_app (cell jj) [_] _ v)|]. cbn [cell_val fold_left fst snd].
    fold (cell a). destruct (Nat.eqb_spec (cell jj) (cell a)) as [E|E].
    + apply Hcell in E; [|easy|apply Hall; now left]. subst a. apply cell_val_other.
      intros b Hb Hc. apply in_map_iff in Hb. destruct Hb as [j [<- Hj]]. cbn [fst] in Hc. fold (cell j) in Hc.
      apply Hcell in Hc; [|apply Hall; now right|easy]. now subst.
    + apply IH; [|easy|intros; apply Hall; now right]. destruct Hjin as [->|?]; [easy|easy].
  - intros h Hh. rewrite Hm, exec_cell. apply cell_val_other. intros a Ha Hc. apply in_flat_map in Ha.
    destruct Ha as [w [_ Ha]]. unfold prog in Ha. destruct (Nat.ltb_spec w W) as [Hw|Hw]; [|easy]. apply Hin in Ha.
    destruct Ha as [jj [Hj Ea]]. apply (Hh (nth jj intr 0)); [apply nth_In; eauto|]. fold (cell jj). congruence.
Qed.
Print Assumptions C51_prof.

(** ** Non-vacuity: 3 workers, 7 particles of mass i+1, the odd ones inside; the run exists, and ends with 2 + 4 + 6. *)
Example C28_nonvacuous : exists k s,
  steps 3 3 (fun w mem => mem w) true k (start 3 (mass_prog Z.add Nat.odd (fun i => Z.of_nat (S i)) 7 3) (fun _ => 0%Z)) s /\
  finished 3 s /\ mass_total Z.add 0%Z (received s) = 12%Z.
Proof.
  set (prog := mass_prog Z.add Nat.odd (fun i => Z.of_nat (S i)) 7 3).
  assert (H : forall n k s, measure s <= n ->
    steps 3 3 (fun w mem => mem w) true k (start 3 prog (fun _ => 0%Z)) s ->
    exists k' s', steps 3 3 (fun w mem => mem w) true k' (start 3 prog (fun _ => 0%Z)) s' /\ finished 3 s').
  { induction n as [|n IH]; intros k s Hn Hs;
      (destruct (Nat.eq_dec (length (received s)) 3) as [Hf|Hf]; [now exists k, s|]);
      destruct (progress 3 3 (fun w (mem : nat -> Z) => mem w) true prog (fun _ => 0%Z) (le_n _) _ _ Hs Hf) as [s' Hs'];
      pose proof (measure_step _ _ _ _ (le_n _) _ _ Hs') as Hm; [lia|].
    apply (IH (S k) s'); [lia|]. eapply steps_next; eauto. }
  destruct (H _ 0 _ (le_n _) (steps_refl _ _ _ _ _)) as (k & s & Hs & Hf). exists k, s. split; [exact Hs|split; [exact Hf|]].
  rewrite (C28_mass Z Z.add 0%Z Z.add_assoc Z.add_comm Z.add_0_l _ _ _ _ _ _ (ltac:(lia) : 1 <= 3) Hs Hf). reflexivity.
Qed.
