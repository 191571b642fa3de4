(** * C26, C49, C50: which halos id mode selects. *)
From Coq Require Import Lia ZArith List Permutation Sorting.Sorted.
From Verif Require Import GoBase GoBaseFacts LoopBase ListFacts IDModel RockstarSpec.
Import List ListNotations.
Local Open Scope Z_scope.

Section ID.
Context {M : Type} (ltb : M -> M -> bool) (zero : M) (sorted_ids : Z -> res (list Z)) (masses : res (list M))
  (host_count : nat -> Z) (subhalos : nat -> list nat) (buffer_ok : bool) (stdin_ids : res (list Z)) (snapMin snapMax : Z).

Notation run := (run M ltb zero sorted_ids masses host_count subhalos buffer_ok stdin_ids snapMin snapMax).
Notation IDConfig := (IDConfig M).

(** [ranked]: the IDs of all halos of the snapshot in decreasing order of mass, as ReadSortedRockstarIDs lists
    them (C33). *)
Definition catalogue (ranked : list Z) : Prop :=
  NoDup ranked /\ sorted_ids (-1) = Ok ranked /\
  forall k, 0 <= k < Z.of_nat (length ranked) -> sorted_ids k = Ok (firstn (Z.to_nat (k + 1)) ranked).

(** A run in which nothing but the selection matters: no mass range, a snapshot of the simulation, particle files. *)
Definition plain (c : IDConfig) : Prop :=
  ltb zero (m200mMax _ c) = false /\ snap _ c <> -1 /\ snapMin <= snap _ c <= snapMax /\ buffer_ok = true /\ 0 < mult _ c.

(** The list of IDs the user asks for: the IDs variable, or standard input if it is not set. *)
Definition requested (c : IDConfig) (req : list Z) : Prop :=
  idStart _ c = -1 /\ -1 <= idEnd _ c /\ req <> [] /\
  (ids _ c = req \/ ids _ c = [] /\ stdin_ids = Ok req).

(** The halos the requested numbers stand for. *)
Definition chosen (ranked : list Z) (c : IDConfig) (req halos : list Z) : Prop :=
  idType _ c = lit "halo-id" /\ halos = req \/
  idType _ c = lit "m200m" /\ Forall2 (fun r id => 0 <= r /\ nth_error ranked (Z.to_nat r) = Some id) req halos.

(** Every row, with the snapshot, printed Mult times. *)
Definition printed (c : IDConfig) (halos : list Z) : list (Z * Z) :=
  flat_map (fun id => repeat (id, snap _ c) (Z.to_nat (mult _ c))) halos.

Lemma all_some_spec {A B} (f : A -> option B) l out : all_some f l = Some out <-> Forall2 (fun a b => f a = Some b) l out.
Proof.
  revert out. induction l as [|a l IH]; intros out; cbn [all_some].
  - split; [intros [= <-]; constructor|]. intros H; inversion H; reflexivity.
  - split.
    + destruct (f a) as [b|] eqn:E; [|discriminate]. destruct (all_some f l) as [bs|]; [|discriminate]. intros [= <-]. constructor; [exact E|]. now apply IH.
    + intros H. inversion H; subst. rewrite H2. rewrite (proj2 (IH l')) by assumption. reflexivity.
Qed.

Lemma all_some_none {A B} (f : A -> option B) l a : In a l -> f a = None -> all_some f l = None.
Proof. induction l as [|x l IH]; intros Hin E; [destruct Hin|]. cbn. destruct Hin as [->|Hin]; [now rewrite E|]. destruct (f x); [|reflexivity]. now rewrite IH. Qed.

Lemma get_ids_requested c req : requested c req -> (idStart _ c <=? idEnd _ c) = true /\ get_ids stdin_ids (idStart _ c) (idEnd _ c) (ids _ c) = Ok req.
Proof.
  intros (E1 & E2 & E3 & H). split; [apply Z.leb_le; lia|]. unfold get_ids. rewrite E1. cbn [Z.eqb negb Z.opp Pos.eqb].
  destruct H as [E|[E Es]]; rewrite E; [|exact Es]. destruct req; [congruence|]. reflexivity.
Qed.

Lemma max_fold l m : let k := fold_left (fun m id => if m <? id then id else m) l m in m <= k /\ Forall (fun x => x <= k) l /\ (k = m \/ In k l).
Proof.
  revert m. induction l as [|x l IH]; intros m; cbn [fold_left].
  - cbv zeta. split; [lia|]. split; [constructor|now left].
  - specialize (IH (if m <? x then x else m)). cbv zeta in *. destruct IH as (H1 & H2 & H3).
    destruct (Z.ltb_spec m x); (split; [lia|]); (split; [constructor; [lia|exact H2]|]); destruct H3 as [H3|H3]; auto; right; [left; lia|now right|now right].
Qed.

Lemma convert_ok ranked req halos : catalogue ranked -> req <> [] ->
  Forall2 (fun r id => 0 <= r /\ nth_error ranked (Z.to_nat r) = Some id) req halos -> convert_sorted_ids sorted_ids req = Ok halos.
Proof.
  intros (ND & E0 & E) Hne F. unfold convert_sorted_ids. destruct (max_fold req 0) as (H1 & H2 & H3).
  set (k := fold_left _ req 0) in *.
  assert (Hlt : forall r, In r req -> 0 <= r < Z.of_nat (length ranked)).
  { intros r Hr. clear - F Hr. induction F as [|r' id req halos [H1 H2] F IH]; [destruct Hr|]. destruct Hr as [<-|Hr]; [|auto].
    assert (Z.to_nat r' < length ranked)%nat by (apply nth_error_Some; congruence). lia. }
  assert (Hk : 0 <= k < Z.of_nat (length ranked)).
  { destruct H3 as [H3|H3]; [|apply Hlt, H3]. destruct req as [|r req]; [congruence|]. specialize (Hlt r (or_introl eq_refl)). rewrite H3. lia. }
  rewrite (E k Hk). rewrite (proj2 (all_some_spec _ req halos)); [reflexivity|].
  assert (Forall2 (fun r id => (0 <= r /\ nth_error ranked (Z.to_nat r) = Some id) /\ r <= k) req halos).
  { clearbody k. clear - F H2. revert H2. induction F; intros H2; [constructor|]. inversion H2; subst. constructor; auto. }
  clearbody k. clear - H. induction H as [|r id req halos [[H1 H2] H3] _ IH]; [constructor|]. constructor; [|exact IH].
  unfold at_rank. destruct (Z.ltb_spec r 0); [lia|].
  rewrite <- H2.
  assert (G : forall (l : list Z) n p, (p < n)%nat -> nth_error (firstn n l) p = nth_error l p).
  { clear. induction l as [|a l IH]; intros [|n] [|p] H; try lia; try reflexivity. cbn. apply IH. lia. }
  apply G. lia.
Qed.

Lemma filter_none {A B} (f : A -> B) l l' : length l = length l' -> filter_lines (map f l) (map (fun _ : A => false) l') = Some (map f l).
Proof. revert l'. induction l as [|a l IH]; intros [|b l'] H; try discriminate; [reflexivity|]. cbn. rewrite IH by (now injection H). reflexivity. Qed.

Lemma printed_map c halos : flat_map (fun row => repeat row (Z.to_nat (mult _ c))) (map (fun id => (id, snap _ c)) halos) = printed c halos.
Proof. unfold printed. induction halos as [|h l IH]; [reflexivity|]. cbn [map flat_map]. now rewrite IH. Qed.

Lemma start ranked c req halos : catalogue ranked -> plain c -> requested c req -> chosen ranked c req halos ->
  halos <> [] /\
  run c = match (if beq (exclusionStrategy _ c) (lit "subhalo") then Panic
                     else if beq (exclusionStrategy _ c) (lit "neighbor") then
                       match read_sub_ids sorted_ids subhalos halos with Ok l => Ok (l, map (fun _ => false) l) | Err => Err | Panic => Panic end
                     else if beq (exclusionStrategy _ c) (lit "overlap") then
                       match find_overlap_subs sorted_ids host_count halos with Ok l => Ok (halos, l) | Err => Err | Panic => Panic end
                     else Ok (halos, map (fun _ => false) halos)) with
              | Ok (outIds, exclude) =>
                  match filter_lines (map (fun id => (id, snap _ c)) outIds) exclude with
                  | Some rows => Ok (Some (flat_map (fun row => repeat row (Z.to_nat (mult _ c))) rows))
                  | None => Panic
                  end
              | Err => Err
              | Panic => Panic
              end.
Proof.
  intros HC (P1 & P2 & P3 & P4 & P5) HR HCh. destruct (get_ids_requested c req HR) as [E1 E2]. pose proof HR as (_ & _ & Hne & _).
  assert (Hh : halos <> []).
  { destruct HCh as [[_ ->]|[_ F]]; [exact Hne|]. intros ->. inversion F; congruence. }
  split; [exact Hh|]. unfold IDModel.run. destruct (Z.eqb_spec (snap _ c) (-1)); [contradiction|].
  destruct (Z.ltb_spec (snap _ c) snapMin); [lia|]. destruct (Z.ltb_spec snapMax (snap _ c)); [lia|]. cbn [orb]. rewrite P1, E1, E2.
  destruct req as [|r req]; [congruence|]. cbn [List.length Nat.eqb]. rewrite P4. cbn [negb].
  destruct HCh as [[Et ->]|[Et F]]; rewrite Et.
  - rewrite beq_refl. reflexivity.
  - change (beq (lit "m200m") (lit "halo-id")) with false. rewrite beq_refl. rewrite (convert_ok ranked _ halos HC Hne F). reflexivity.
Qed.

Lemma read_sub_ids_nonempty ranked l : sorted_ids (-1) = Ok ranked -> ranked <> [] -> read_sub_ids sorted_ids subhalos l = add_neighbours subhalos ranked l.
Proof. intros E Hne. unfold read_sub_ids. rewrite E. destruct ranked; [congruence|reflexivity]. Qed.

(** ** C26 *)

(** Without exclusion, the requested halos are printed in the requested order, each Mult times. *)
Theorem C26_none : forall ranked c req halos,
  catalogue ranked -> plain c -> requested c req -> chosen ranked c req halos -> exclusionStrategy _ c = lit "none" ->
  run c = Ok (Some (printed c halos)).
Proof.
  intros ranked c req halos HC HP HR HCh E. destruct (start ranked c req halos HC HP HR HCh) as [_ ->]. rewrite E.
  change (beq (lit "none") (lit "subhalo")) with false. change (beq (lit "none") (lit "neighbor")) with false.
  change (beq (lit "none") (lit "overlap")) with false. cbv iota. rewrite filter_none by reflexivity. now rewrite printed_map.
Qed.

Lemma first_rank_spec ranked id s k : NoDup ranked -> nth_error ranked k = Some id -> first_rank id ranked s = Some (s + k)%nat.
Proof.
  revert s k. induction ranked as [|r l IH]; intros s [|k] ND H; try discriminate; cbn [first_rank].
  - injection H as ->. rewrite Z.eqb_refl. f_equal. lia.
  - inversion ND; subst. destruct (Z.eqb_spec r id) as [->|]; [cbn [nth_error] in H; apply nth_error_In in H; contradiction|].
    rewrite (IH (S s) k) by assumption. f_equal. lia.
Qed.

Lemma first_rank_none ranked id s : ~ In id ranked -> first_rank id ranked s = None.
Proof.
  revert s. induction ranked as [|r l IH]; intros s H; [reflexivity|]. cbn. destruct (Z.eqb_spec r id) as [->|]; [exfalso; apply H; now left|].
  apply IH. intros Q. apply H. now right.
Qed.

Lemma last_rank_none ranked id s : ~ In id ranked -> last_rank id ranked s = None.
Proof.
  revert s. induction ranked as [|r l IH]; intros s H; [reflexivity|]. cbn. rewrite IH by (intros Q; apply H; now right).
  destruct (Z.eqb_spec r id) as [->|]; [exfalso; apply H; now left|]. reflexivity.
Qed.

Lemma last_rank_spec ranked id s k : NoDup ranked -> nth_error ranked k = Some id -> last_rank id ranked s = Some (s + k)%nat.
Proof.
  revert s k. induction ranked as [|r l IH]; intros s [|k] ND H; try discriminate; cbn [last_rank]; inversion ND; subst.
  - injection H as ->. rewrite last_rank_none by assumption. rewrite Z.eqb_refl. f_equal. lia.
  - rewrite (IH (S s) k) by assumption. f_equal. lia.
Qed.

(** [keeps ranked id]: the halo has a rank, and no host was found for this rank. *)
Definition no_host (ranked : list Z) (id : Z) : Prop := forall k, nth_error ranked k = Some id -> host_count k <= 0.

(** The rows of the halos without hosts, in order. *)
Inductive without_subhalos (ranked : list Z) : list Z -> list Z -> Prop :=
| ws_nil : without_subhalos ranked [] []
| ws_keep id l l' : no_host ranked id -> without_subhalos ranked l l' -> without_subhalos ranked (id :: l) (id :: l')
| ws_drop id l l' : ~ no_host ranked id -> without_subhalos ranked l l' -> without_subhalos ranked (id :: l) l'.

(** With "overlap", exactly the halos that have a host are left out. *)
Theorem C26_overlap : forall ranked c req halos,
  catalogue ranked -> plain c -> requested c req -> chosen ranked c req halos -> exclusionStrategy _ c = lit "overlap" ->
  Forall (fun id => In id ranked) halos ->
  exists kept, without_subhalos ranked halos kept /\ run c = Ok (Some (printed c kept)).
Proof.
  intros ranked c req halos HC HP HR HCh E Hin. destruct (start ranked c req halos HC HP HR HCh) as [Hne ->]. rewrite E.
  change (beq (lit "overlap") (lit "subhalo")) with false. change (beq (lit "overlap") (lit "neighbor")) with false. rewrite beq_refl. cbv iota.
  destruct HC as (ND & E0 & _). unfold find_overlap_subs. rewrite E0.
  destruct ranked as [|r0 rs] eqn:Er; [destruct halos as [|h hs]; [congruence|]; inversion Hin as [|? ? Q ?]; destruct Q|]. rewrite <- Er in *. clear Er r0 rs.
  assert (G : exists l kept, all_some (fun id => option_map (fun j => 0 <? host_count j) (first_rank id ranked 0)) halos = Some l /\
     filter_lines (map (fun id => (id, snap _ c)) halos) l = Some (map (fun id => (id, snap _ c)) kept) /\ without_subhalos ranked halos kept).
  { clear Hne HCh. induction Hin as [|id halos Hid _ IH]; [exists [], []; repeat split; constructor|].
    destruct IH as (l & kept & A1 & A2 & A3). apply In_nth_error in Hid. destruct Hid as (k & Hk).
    exists ((0 <? host_count k) :: l). pose proof (first_rank_spec ranked id 0 k ND Hk) as Hf. cbn [Nat.add] in Hf.
    destruct (Z.ltb_spec 0 (host_count k)) as [Hh|Hh].
    - exists kept. cbn [all_some map filter_lines]. rewrite Hf. cbn [option_map]. rewrite A1, A2. destruct (Z.ltb_spec 0 (host_count k)); [|lia].
      split; [reflexivity|]. split; [reflexivity|]. apply ws_drop; [|exact A3]. intros Q. specialize (Q k Hk). lia.
    - exists (id :: kept). cbn [all_some map filter_lines]. rewrite Hf. cbn [option_map]. rewrite A1, A2. destruct (Z.ltb_spec 0 (host_count k)); [lia|].
      split; [reflexivity|]. split; [reflexivity|]. apply ws_keep; [|exact A3]. intros k' Hk'.
      assert (k = k'); [|congruence]. apply (proj1 (NoDup_nth_error ranked) ND); [apply nth_error_Some; congruence|congruence]. }
  destruct G as (l & kept & A1 & A2 & A3). exists kept. split; [exact A3|]. rewrite A1, A2. now rewrite printed_map.
Qed.

(** With "neighbor", each requested halo is followed by the halos the finder reports for it. *)
Theorem C26_neighbor : forall ranked c req halos,
  catalogue ranked -> plain c -> requested c req -> chosen ranked c req halos -> exclusionStrategy _ c = lit "neighbor" ->
  Forall (fun id => In id ranked) halos -> (forall k, Forall (fun j => (j < length ranked)%nat) (subhalos k)) ->
  exists groups, run c = Ok (Some (printed c (concat groups))) /\
    Forall2 (fun id g => exists k near, nth_error ranked k = Some id /\ g = id :: near /\
               Forall2 (fun j n => nth_error ranked j = Some n) (subhalos k) near) halos groups.
Proof.
  intros ranked c req halos HC HP HR HCh E Hin Hsub. destruct (start ranked c req halos HC HP HR HCh) as [Hne ->]. rewrite E.
  change (beq (lit "neighbor") (lit "subhalo")) with false. rewrite beq_refl. cbv iota. destruct HC as (ND & E0 & _).
  assert (Hr : ranked <> []) by (intros ->; destruct Hin; [congruence|contradiction]). rewrite (read_sub_ids_nonempty _ _ E0 Hr). clear Hr.
  assert (G : exists groups, add_neighbours subhalos ranked halos = Ok (concat groups) /\
     Forall2 (fun id g => exists k near, nth_error ranked k = Some id /\ g = id :: near /\
               Forall2 (fun j n => nth_error ranked j = Some n) (subhalos k) near) halos groups).
  { clear Hne HCh. induction Hin as [|id halos Hid _ IH]; [exists []; split; [reflexivity|constructor]|].
    destruct IH as (groups & A1 & A2). apply In_nth_error in Hid. destruct Hid as (k & Hk).
    assert (N : exists near, Forall2 (fun j n => nth_error ranked j = Some n) (subhalos k) near).
    { specialize (Hsub k). clear -Hsub. induction Hsub as [|j js Hj _ (near & IH)]; [exists []; constructor|].
      destruct (nth_error ranked j) as [n|] eqn:En; [|apply nth_error_None in En; lia]. exists (n :: near). now constructor. }
    destruct N as (near & Hnear). exists ((id :: near) :: groups). cbn [add_neighbours]. unfold neighbours.
    rewrite (last_rank_spec ranked id 0 k ND Hk). cbn [Nat.add]. rewrite (proj2 (all_some_spec _ _ near) Hnear), A1. split; [reflexivity|].
    constructor; [|exact A2]. exists k, near. auto. }
  destruct G as (groups & A1 & A2). exists groups. split; [|exact A2]. rewrite A1. rewrite filter_none by reflexivity. now rewrite printed_map.
Qed.

(** A requested ID that the catalogue does not have is an error. *)
Theorem C26_unknown_id : forall ranked c req halos id,
  catalogue ranked -> plain c -> requested c req -> chosen ranked c req halos ->
  exclusionStrategy _ c = lit "overlap" \/ exclusionStrategy _ c = lit "neighbor" -> (forall k, Forall (fun j => (j < length ranked)%nat) (subhalos k)) ->
  ranked <> [] -> In id halos -> ~ In id ranked -> run c = Err.
Proof.
  intros ranked c req halos id HC HP HR HCh E Hsub Hr Hin Hno. destruct (start ranked c req halos HC HP HR HCh) as [Hne ->].
  destruct HC as (ND & E0 & _). destruct E as [E|E]; rewrite E.
  - change (beq (lit "overlap") (lit "subhalo")) with false. change (beq (lit "overlap") (lit "neighbor")) with false. rewrite beq_refl. cbv iota.
    unfold find_overlap_subs. rewrite E0. destruct ranked as [|r0 rs] eqn:Er; [congruence|]. rewrite <- Er in *.
    rewrite (all_some_none _ _ id Hin); [reflexivity|]. now rewrite first_rank_none.
  - change (beq (lit "neighbor") (lit "subhalo")) with false. rewrite beq_refl. cbv iota. rewrite (read_sub_ids_nonempty _ _ E0 Hr).
    assert (G : add_neighbours subhalos ranked halos = Err); [|now rewrite G].
    clear -Hin Hno Hsub. induction halos as [|h l IH]; [destruct Hin|]. cbn [add_neighbours]. unfold neighbours.
    destruct Hin as [->|Hin]; [now rewrite last_rank_none|]. destruct (last_rank h ranked 0) as [k|]; [|reflexivity].
    assert (N : exists near, all_some (nth_error ranked) (subhalos k) = Some near).
    { specialize (Hsub k). clear -Hsub. induction Hsub as [|j js Hj _ (near & IH)]; [now exists []|].
      destruct (nth_error ranked j) as [n|] eqn:En; [|apply nth_error_None in En; lia]. exists (n :: near). cbn. now rewrite En, IH. }
    destruct N as (near & ->). now rewrite IH.
Qed.

(** ** C49: ranges of IDs *)

(** The integers from a to b, both included, with their number of elements. *)
Definition is_range (a b : Z) (l : list Z) : Prop := forall i, nth_error l i = if a + Z.of_nat i <=? b then Some (a + Z.of_nat i) else None.

Lemma get_ids_range a b l : a <> -1 -> a <= b -> exists out, get_ids stdin_ids a b l = Ok out /\ is_range a (b - 1) out.
Proof.
  intros H1 H2. unfold get_ids. destruct (Z.eqb_spec a (-1)); [contradiction|]. cbn [negb]. destruct (Z.ltb_spec (b - a) 0); [lia|].
  eexists. split; [reflexivity|]. intros i. rewrite nth_error_map. destruct (Z.leb_spec (a + Z.of_nat i) (b - 1)).
  - rewrite (nth_error_nth' _ 0%nat) by (rewrite seq_length; lia). rewrite seq_nth by lia. reflexivity.
  - rewrite (proj2 (nth_error_None _ _)) by (rewrite seq_length; lia). reflexivity.
Qed.

Lemma range_inhabited a b l : is_range a b l -> a <= b -> l <> [].
Proof. intros H Hab ->. specialize (H 0%nat). cbn in H. destruct (Z.leb_spec (a + 0) b); [discriminate|lia]. Qed.

Lemma range_length a b l : is_range a b l -> a <= b + 1 -> Z.of_nat (length l) = b + 1 - a.
Proof.
  intros H Hab. assert (L : forall n, (n < length l)%nat <-> a + Z.of_nat n <= b).
  { intros n. rewrite <- nth_error_Some, H. destruct (Z.leb_spec (a + Z.of_nat n) b); split; intros; try lia; congruence. }
  destruct (Nat.eq_dec (length l) (Z.to_nat (b + 1 - a))) as [->|Q]; [lia|]. exfalso.
  destruct (Nat.lt_ge_cases (length l) (Z.to_nat (b + 1 - a))) as [Q2|Q2].
  - assert (length l < length l)%nat by (apply L; lia). lia.
  - assert (Z.to_nat (b + 1 - a) < length l)%nat by lia. apply L in H0. lia.
Qed.

(** IDStart and IDEnd are documented as an inclusive range. For halo IDs and no exclusion, what is printed is the
    range without its end. *)
Theorem C49_end_dropped_refuted : forall c, plain c -> idType _ c = lit "halo-id" -> exclusionStrategy _ c = lit "none" ->
  idStart _ c <> -1 -> idStart _ c < idEnd _ c ->
  exists halos, is_range (idStart _ c) (idEnd _ c - 1) halos /\ run c = Ok (Some (printed c halos)) /\
    ~ In (idEnd _ c) (map fst (printed c halos)).
Proof.
  intros c (P1 & P2 & P3 & P4 & P5) Et Ex Hs Hse. destruct (get_ids_range (idStart _ c) (idEnd _ c) (ids _ c) Hs ltac:(lia)) as (out & E & Hr).
  exists out. split; [exact Hr|]. split.
  - unfold IDModel.run. destruct (Z.eqb_spec (snap _ c) (-1)); [contradiction|].
    destruct (Z.ltb_spec (snap _ c) snapMin); [lia|]. destruct (Z.ltb_spec snapMax (snap _ c)); [lia|]. cbn [orb]. rewrite P1.
    destruct (Z.leb_spec (idStart _ c) (idEnd _ c)); [|lia]. rewrite E. pose proof (range_inhabited _ _ _ Hr ltac:(lia)) as Hne.
    destruct out as [|o out]; [congruence|]. cbn [List.length Nat.eqb]. rewrite P4. cbn [negb]. rewrite Et, beq_refl, Ex.
    change (beq (lit "none") (lit "subhalo")) with false. change (beq (lit "none") (lit "neighbor")) with false.
    change (beq (lit "none") (lit "overlap")) with false. cbv iota. rewrite filter_none by reflexivity. now rewrite printed_map.
  - intros Q. apply in_map_iff in Q. destruct Q as ((id, sn) & Q1 & Q2). cbn in Q1. subst id. unfold printed in Q2. apply in_flat_map in Q2.
    destruct Q2 as (x & Q2 & Q3). apply repeat_spec in Q3. injection Q3 as <- _. apply In_nth_error in Q2. destruct Q2 as (i & Q2).
    rewrite Hr in Q2. destruct (Z.leb_spec (idStart _ c + Z.of_nat i) (idEnd _ c - 1)); [|discriminate]. injection Q2. lia.
Qed.

(** A range of one ID prints nothing at all. *)
Theorem C49_single_refuted : forall c, plain c -> idStart _ c <> -1 -> idStart _ c = idEnd _ c -> run c = Ok None.
Proof.
  intros c (P1 & P2 & P3 & P4 & P5) Hs Hse. unfold IDModel.run. destruct (Z.eqb_spec (snap _ c) (-1)); [contradiction|].
  destruct (Z.ltb_spec (snap _ c) snapMin); [lia|]. destruct (Z.ltb_spec snapMax (snap _ c)); [lia|]. cbn [orb]. rewrite P1.
  destruct (Z.leb_spec (idStart _ c) (idEnd _ c)); [|lia]. unfold get_ids. destruct (Z.eqb_spec (idStart _ c) (-1)); [contradiction|]. cbn [negb].
  rewrite Hse, Z.sub_diag. reflexivity.
Qed.

(** Nothing outside the range is ever printed, each ID of the range but the last is, in order. *)
Theorem C49_inside_partial : forall ranked c, catalogue ranked -> plain c -> idType _ c = lit "m200m" -> exclusionStrategy _ c = lit "none" ->
  0 <= idStart _ c < idEnd _ c -> idEnd _ c <= Z.of_nat (length ranked) ->
  exists halos, run c = Ok (Some (printed c halos)) /\ Z.of_nat (length halos) = idEnd _ c - idStart _ c /\
    forall i, (i < length halos)%nat -> nth_error halos i = nth_error ranked (Z.to_nat (idStart _ c) + i).
Proof.
  intros ranked c HC (P1 & P2 & P3 & P4 & P5) Et Ex Hs Hse. destruct (get_ids_range (idStart _ c) (idEnd _ c) (ids _ c) ltac:(lia) ltac:(lia)) as (out & E & Hr).
  pose proof (range_length _ _ _ Hr ltac:(lia)) as L. pose proof (range_inhabited _ _ _ Hr ltac:(lia)) as Hne.
  assert (G : forall s l, (forall i, (i < length l)%nat -> nth_error l i = Some (s + Z.of_nat i)) -> 0 <= s -> s + Z.of_nat (length l) <= Z.of_nat (length ranked) ->
     exists halos, Forall2 (fun r id => 0 <= r /\ nth_error ranked (Z.to_nat r) = Some id) l halos).
  { clear. intros s l. revert s. induction l as [|x l IH]; intros s H Hs Hl; [exists []; constructor|]. cbn [length] in Hl.
    destruct (IH (s + 1)) as (halos & Hh); [|lia|lia|].
    - intros i Hi. specialize (H (S i)). cbn [length nth_error] in H. rewrite H by lia. f_equal. lia.
    - specialize (H 0%nat). cbn [length nth_error] in H. specialize (H ltac:(lia)). injection H as ->.
      destruct (nth_error ranked (Z.to_nat (s + 0))) as [id|] eqn:En; [|apply nth_error_None in En; lia]. exists (id :: halos). constructor; [|exact Hh].
      split; [lia|]. cbn. rewrite <- En. reflexivity. }
  destruct (G (idStart _ c) out) as (halos & Hh); [|lia|lia|].
  { intros i Hi. rewrite Hr. destruct (Z.leb_spec (idStart _ c + Z.of_nat i) (idEnd _ c - 1)); [reflexivity|lia]. }
  exists halos. assert (L2 : length halos = length out) by (symmetry; eapply Forall2_length; eauto). split; [|split].
  - unfold IDModel.run. destruct (Z.eqb_spec (snap _ c) (-1)); [contradiction|].
    destruct (Z.ltb_spec (snap _ c) snapMin); [lia|]. destruct (Z.ltb_spec snapMax (snap _ c)); [lia|]. cbn [orb]. rewrite P1.
    destruct (Z.leb_spec (idStart _ c) (idEnd _ c)); [|lia]. rewrite E.
    destruct out as [|o out]; [congruence|]. cbn [List.length Nat.eqb]. rewrite P4. cbn [negb]. rewrite Et, Ex.
    change (beq (lit "m200m") (lit "halo-id")) with false. rewrite beq_refl. rewrite (convert_ok ranked _ halos HC Hne Hh). cbv iota.
    change (beq (lit "none") (lit "subhalo")) with false. change (beq (lit "none") (lit "neighbor")) with false.
    change (beq (lit "none") (lit "overlap")) with false. cbv iota. rewrite filter_none by reflexivity. now rewrite printed_map.
  - lia.
  - intros i Hi. assert (Q : exists r, nth_error out i = Some r /\ 0 <= r /\ nth_error ranked (Z.to_nat r) = nth_error halos i).
    { clear - Hh Hi. revert i Hi. induction Hh as [|r id l halos [H1 H2] _ IH]; intros [|i] Hi; cbn [length] in Hi; try lia.
      - exists r. auto.
      - apply IH. lia. }
    destruct Q as (r & Q1 & Q2 & Q3). rewrite Hr in Q1. destruct (Z.leb_spec (idStart _ c + Z.of_nat i) (idEnd _ c - 1)); [|discriminate].
    injection Q1 as <-. rewrite <- Q3. f_equal. lia.
Qed.

(** ** C50: ranges of mass *)

Lemma mass_range_spec (c : IDConfig) ms : forall st i, 0 <= i -> exists hi s, (hi <= length ms)%nat /\
  mass_range M ltb c st i ms = (s, i + Z.of_nat hi - 1) /\
  (forall j m, (j < hi)%nat -> nth_error ms j = Some m -> ltb m (m200mMin _ c) = false) /\
  (forall m, nth_error ms hi = Some m -> ltb m (m200mMin _ c) = true) /\
  (st <> -1 -> s = st) /\
  (st = -1 -> (s = -1 /\ forall j m, (j <= hi)%nat -> nth_error ms j = Some m -> ltb (m200mMax _ c) m = true) \/
    exists k m, (k <= hi)%nat /\ s = i + Z.of_nat k /\ nth_error ms k = Some m /\ ltb (m200mMax _ c) m = false /\
      forall j m, (j < k)%nat -> nth_error ms j = Some m -> ltb (m200mMax _ c) m = true).
Proof.
  induction ms as [|m ms IH]; intros st i Hi; cbn [mass_range].
  - exists 0%nat, st. split; [cbn; lia|]. split; [f_equal; lia|]. split; [intros; lia|]. split; [intros ? Q; discriminate|]. split; [auto|].
    intros ->. left. split; [reflexivity|]. intros [|j] ? _ Q; discriminate.
  - set (st' := if (st =? -1) && negb (ltb (m200mMax M c) m) then i else st).
    destruct (ltb m (m200mMin M c)) eqn:Em.
    + exists 0%nat, st'. split; [lia|]. split; [f_equal; lia|]. split; [intros; lia|]. split; [intros m' [= <-]; exact Em|]. split.
      * intros Q. unfold st'. destruct (Z.eqb_spec st (-1)); [contradiction|reflexivity].
      * intros ->. unfold st'. cbn [Z.eqb Z.opp Pos.eqb andb]. destruct (ltb (m200mMax M c) m) eqn:Ex; cbn [negb].
        { left. split; [reflexivity|]. intros [|j] m' Hj Q; [|lia]. injection Q as <-. exact Ex. }
        right. exists 0%nat, m. split; [lia|]. split; [lia|]. split; [reflexivity|]. split; [exact Ex|]. intros; lia.
    + destruct (IH st' (i + 1) ltac:(lia)) as (hi & s & A1 & A2 & A3 & A4 & A5 & A6). exists (S hi), s. split; [cbn; lia|]. split; [rewrite A2; f_equal; lia|].
      split. { intros [|j] m' Hj Q; [injection Q as <-; exact Em|]. apply (A3 j); [lia|exact Q]. }
      split; [intros m' Q; apply A4; exact Q|]. split.
      * intros Q. assert (st' = st) by (unfold st'; destruct (Z.eqb_spec st (-1)); [contradiction|reflexivity]). rewrite H in *. auto.
      * intros ->. unfold st' in *. cbn [Z.eqb Z.opp Pos.eqb andb] in *. destruct (ltb (m200mMax M c) m) eqn:Ex; cbn [negb] in *.
        { destruct (A6 eq_refl) as [(B1 & B2)|(k & m' & B1 & B2 & B3 & B4 & B5)].
          - left. split; [exact B1|]. intros [|j] m' Hj Q; [injection Q as <-; exact Ex|]. apply (B2 j); [lia|exact Q].
          - right. exists (S k), m'. split; [lia|]. split; [lia|]. split; [exact B3|]. split; [exact B4|].
            intros [|j] m'' Hj Q; [injection Q as <-; exact Ex|]. apply (B5 j); [lia|exact Q]. }
        right. exists 0%nat, m. split; [lia|]. split; [rewrite A5 by lia; lia|]. split; [reflexivity|]. split; [exact Ex|]. intros; lia.
Qed.

(** Masses in decreasing order. *)
Definition decreasing (ms : list M) : Prop := StronglySorted (fun a b => ltb a b = false) ms.
Definition in_range (c : IDConfig) (m : M) : Prop := ltb m (m200mMin _ c) = false /\ ltb (m200mMax _ c) m = false.

Lemma decreasing_nth ms i j a b : decreasing ms -> (i < j)%nat -> nth_error ms i = Some a -> nth_error ms j = Some b -> ltb a b = false.
Proof.
  intros H. revert i j. induction H as [|x l Hs IH F]; intros [|i] [|j] Hij Hi Hj; try lia; try discriminate.
  - injection Hi as <-. cbn [nth_error] in Hj. apply nth_error_In in Hj. now apply (proj1 (Forall_forall _ _) F).
  - apply (IH i j); auto; lia.
Qed.

Notation gmr := (get_mass_id_range M ltb sorted_ids masses buffer_ok).

(** When some halo has a mass in [M200mMin, M200mMax], the ranks from the computed IDStart to IDEnd, both included,
    are exactly those of the halos in the range. *)
Theorem C50_ranks_partial : forall c ms all, weak_order M ltb -> buffer_ok = true -> sorted_ids (-1) = Ok all -> masses = Ok ms -> decreasing ms ->
  (exists m, In m ms /\ in_range c m) ->
  forall r m, nth_error ms r = Some m -> (idStart _ (gmr c) <= Z.of_nat r <= idEnd _ (gmr c) <-> in_range c m).
Proof.
  intros c ms all [W1 W2] Hb Hs Hm HD (m0 & Hin & Hr0) r m Hr. unfold get_mass_id_range. rewrite Hb, Hs, Hm. cbn [negb].
  destruct (mass_range_spec (set_type M c (lit "m200m")) ms (-1) 0 ltac:(lia)) as (hi & s & A1 & A2 & A3 & A4 & _ & A6).
  rewrite A2. cbn [fst snd idStart idEnd set_range]. cbn [m200mMin m200mMax set_type] in *.
  assert (Below : forall j b, (hi <= j)%nat -> nth_error ms j = Some b -> ltb b (m200mMin _ c) = true).
  { intros j b Hj Q. destruct (nth_error ms hi) as [h|] eqn:Eh; [|apply nth_error_None in Eh; assert (j < length ms)%nat by (apply nth_error_Some; congruence); lia].
    specialize (A4 h eq_refl). destruct (Nat.eq_dec hi j) as [<-|]; [congruence|].
    assert (ltb h b = false) by (eapply (decreasing_nth ms hi j); eauto; lia).
    destruct (ltb b (m200mMin _ c)) eqn:E; [reflexivity|]. assert (ltb h (m200mMin _ c) = false) by (eapply W2; eauto). congruence. }
  apply In_nth_error in Hin. destruct Hin as (r0 & Hr0n). destruct Hr0 as [R1 R2].
  assert (H0 : (r0 < hi)%nat). { destruct (Nat.lt_ge_cases r0 hi); [assumption|]. rewrite (Below r0 m0) in R1 by assumption. discriminate. }
  destruct (A6 eq_refl) as [(B1 & B2)|(k & mk & B1 & B2 & B3 & B4 & B5)].
  { rewrite (B2 r0 m0) in R2 by (assumption || lia). discriminate. }
  assert (Above : forall j b, (k <= j)%nat -> nth_error ms j = Some b -> ltb (m200mMax _ c) b = false).
  { intros j b Hj Q. destruct (Nat.eq_dec k j) as [<-|]; [congruence|]. assert (ltb mk b = false) by (eapply (decreasing_nth ms k j); eauto; lia).
    eapply W2; eauto. }
  unfold in_range. split.
  - intros Q. split; [apply (A3 r); [lia|exact Hr]|apply (Above r); [lia|exact Hr]].
  - intros [Q1 Q2]. assert (r < hi)%nat. { destruct (Nat.lt_ge_cases r hi); [assumption|]. rewrite (Below r m) in Q1 by assumption. discriminate. }
    assert (k <= r)%nat. { destruct (Nat.lt_ge_cases r k) as [Q|Q]; [|exact Q]. rewrite (B5 r m Q Hr) in Q2. discriminate. } lia.
Qed.

(** When the lightest halo in the range is not the only one, it is not printed. *)
Theorem C50_lightest_dropped_refuted : forall c ms ranked, weak_order M ltb -> catalogue ranked -> masses = Ok ms -> length ms = length ranked -> decreasing ms ->
  ltb zero (m200mMax _ c) = true -> buffer_ok = true -> snap _ c <> -1 -> snapMin <= snap _ c <= snapMax -> exclusionStrategy _ c = lit "none" ->
  (exists r m r' m', nth_error ms r = Some m /\ nth_error ms r' = Some m' /\ (r < r')%nat /\ in_range c m /\ in_range c m') ->
  exists a b halos id, (forall r m, nth_error ms r = Some m -> ((a <= r <= b)%nat <-> in_range c m)) /\
    nth_error ranked b = Some id /\ run c = Ok (Some (printed c halos)) /\ ~ In id halos.
Proof.
  intros c ms ranked HW HC Hm HL HD Hpos Hb Hsn Hsr Hex (r & m & r' & m' & Hr & Hr' & Hlt & Hin & Hin').
  pose proof HC as (ND & E0 & _).
  pose proof (C50_ranks_partial c ms ranked HW Hb E0 Hm HD (ex_intro _ m (conj (nth_error_In _ _ Hr) Hin))) as Ranks.
  set (c' := gmr c) in *.
  assert (Hge : 0 <= idStart _ c' /\ 0 <= idEnd _ c' < Z.of_nat (length ms)).
  { unfold c', get_mass_id_range. rewrite Hb, E0, Hm. cbn [negb].
    destruct (mass_range_spec (set_type M c (lit "m200m")) ms (-1) 0 ltac:(lia)) as (hi & s & A1 & A2 & A3 & A4 & _ & A6).
    pose proof (proj2 (Ranks r' m' Hr') Hin') as Q. pose proof (proj2 (Ranks r m Hr) Hin) as Q'. unfold c', get_mass_id_range in Q, Q'. rewrite Hb, E0, Hm in Q, Q'. cbn [negb] in Q, Q'.
    rewrite A2 in Q, Q' |- *. cbn [fst snd idStart idEnd set_range] in Q, Q' |- *. cbn [m200mMin m200mMax set_type] in *.
    destruct (A6 eq_refl) as [(B1 & B2)|(k & mk & B1 & B2 & B3 & B4 & B5)].
    - exfalso. destruct Hin as [_ Hin]. rewrite (B2 r m) in Hin by (assumption || lia). discriminate.
    - lia. }
  pose proof (proj2 (Ranks r m Hr) Hin) as Q1. pose proof (proj2 (Ranks r' m' Hr') Hin') as Q2.
  assert (Et : idType _ c' = lit "m200m") by (unfold c', get_mass_id_range; now rewrite Hb, E0, Hm).
  assert (Ec : snap _ c' = snap _ c /\ mult _ c' = mult _ c /\ exclusionStrategy _ c' = exclusionStrategy _ c /\ ids _ c' = ids _ c)
    by (unfold c', get_mass_id_range; rewrite Hb, E0, Hm; auto).
  destruct Ec as (Ec1 & Ec2 & Ec3 & Ec4).
  destruct (get_ids_range (idStart _ c') (idEnd _ c') (ids _ c') ltac:(lia) ltac:(lia)) as (out & E & Hrg).
  pose proof (range_length _ _ _ Hrg ltac:(lia)) as L. pose proof (range_inhabited _ _ _ Hrg ltac:(lia)) as Hne.
  assert (G : exists halos, Forall2 (fun r id => 0 <= r /\ nth_error ranked (Z.to_nat r) = Some id) out halos).
  { assert (F : Forall (fun x => idStart _ c' <= x <= idEnd _ c' - 1) out).
    { apply Forall_forall. intros x Hx. apply In_nth_error in Hx. destruct Hx as (i & Hi). rewrite Hrg in Hi.
      destruct (Z.leb_spec (idStart M c' + Z.of_nat i) (idEnd M c' - 1)); [|discriminate]. injection Hi as <-. lia. }
    clear - F Hge HL. induction F as [|x l Hx F (halos & IH)]; [exists []; constructor|].
    destruct (nth_error ranked (Z.to_nat x)) as [id|] eqn:En; [|apply nth_error_None in En; lia]. exists (id :: halos). constructor; [|exact IH]. split; [lia|exact En]. }
  destruct G as (halos & Hh).
  destruct (nth_error ranked (Z.to_nat (idEnd _ c'))) as [id|] eqn:Eid; [|apply nth_error_None in Eid; lia].
  exists (Z.to_nat (idStart _ c')), (Z.to_nat (idEnd _ c')), halos, id. split; [|split; [exact Eid|split]].
  - intros r1 m1 Hr1. rewrite <- (Ranks r1 m1 Hr1). lia.
  - unfold IDModel.run. destruct (Z.eqb_spec (snap _ c) (-1)); [contradiction|].
    destruct (Z.ltb_spec (snap _ c) snapMin); [lia|]. destruct (Z.ltb_spec snapMax (snap _ c)); [lia|]. cbn [orb]. rewrite Hpos. fold c'.
    destruct (Z.leb_spec (idStart _ c') (idEnd _ c')); [|lia]. rewrite E.
    destruct out as [|o out]; [congruence|]. cbn [List.length Nat.eqb]. rewrite Hb. cbn [negb]. rewrite Et, Ec3, Hex.
    change (beq (lit "m200m") (lit "halo-id")) with false. rewrite beq_refl. rewrite (convert_ok ranked _ halos HC Hne Hh). cbv iota.
    change (beq (lit "none") (lit "subhalo")) with false. change (beq (lit "none") (lit "neighbor")) with false.
    change (beq (lit "none") (lit "overlap")) with false. cbv iota. rewrite filter_none by reflexivity. rewrite printed_map. unfold printed. now rewrite Ec1, Ec2.
  - intros Q. assert (X : exists x, In x out /\ nth_error ranked (Z.to_nat x) = Some id /\ 0 <= x).
    { clear - Hh Q. induction Hh as [|x i l halos [H1 H2] _ IH]; [destruct Q|]. destruct Q as [->|Q]; [exists x; split; [now left|auto]|].
      destruct (IH Q) as (y & Y1 & Y2). exists y. split; [now right|exact Y2]. }
    destruct X as (x & X1 & X2 & X3). apply In_nth_error in X1. destruct X1 as (i & X1). rewrite Hrg in X1.
    destruct (Z.leb_spec (idStart M c' + Z.of_nat i) (idEnd M c' - 1)); [|discriminate]. injection X1 as X1.
    assert (Z.to_nat x = Z.to_nat (idEnd _ c')); [|lia]. apply (proj1 (NoDup_nth_error ranked) ND); [apply nth_error_Some; congruence|congruence].
Qed.

(** When every halo is lighter than the range, the program crashes. *)
Theorem C50_all_lighter_refuted : forall c ms all, weak_order M ltb -> sorted_ids (-1) = Ok all -> masses = Ok ms -> ms <> [] ->
  Forall (fun m => ltb m (m200mMin _ c) = true /\ ltb (m200mMax _ c) m = false) ms ->
  ltb zero (m200mMax _ c) = true -> buffer_ok = true -> snap _ c <> -1 -> snapMin <= snap _ c <= snapMax -> run c = Panic.
Proof.
  intros c ms all HW E0 Hm Hne F Hpos Hb Hsn Hsr. unfold IDModel.run. destruct (Z.eqb_spec (snap _ c) (-1)); [contradiction|].
  destruct (Z.ltb_spec (snap _ c) snapMin); [lia|]. destruct (Z.ltb_spec snapMax (snap _ c)); [lia|]. cbn [orb]. rewrite Hpos.
  unfold get_mass_id_range. rewrite Hb, E0, Hm. cbn [negb]. destruct ms as [|m ms]; [congruence|]. inversion F as [|? ? [F1 F2] _]; subst.
  cbn [mass_range set_type m200mMin m200mMax]. rewrite F1, F2. cbn [Z.eqb Z.opp Pos.eqb andb negb fst snd set_range idStart idEnd]. reflexivity.
Qed.

(** When every halo is heavier than the range, the range is ignored: the IDs variable or standard input is used. *)
Theorem C50_all_heavier_refuted : forall c ms ranked req halos, catalogue ranked -> masses = Ok ms -> ms <> [] ->
  Forall (fun m => ltb m (m200mMin _ c) = false /\ ltb (m200mMax _ c) m = true) ms ->
  ltb zero (m200mMax _ c) = true -> buffer_ok = true -> snap _ c <> -1 -> snapMin <= snap _ c <= snapMax ->
  exclusionStrategy _ c = lit "none" -> ids _ c = req -> req <> [] ->
  Forall2 (fun r id => 0 <= r /\ nth_error ranked (Z.to_nat r) = Some id) req halos ->
  run c = Ok (Some (printed c halos)).
Proof.
  intros c ms ranked req halos HC Hm Hne F Hpos Hb Hsn Hsr Hex Hreq Hrne Hh. pose proof HC as (_ & E0 & _).
  unfold IDModel.run. destruct (Z.eqb_spec (snap _ c) (-1)); [contradiction|].
  destruct (Z.ltb_spec (snap _ c) snapMin); [lia|]. destruct (Z.ltb_spec snapMax (snap _ c)); [lia|]. cbn [orb]. rewrite Hpos.
  unfold get_mass_id_range. rewrite Hb, E0, Hm. cbn [negb].
  assert (G : exists e, mass_range M ltb (set_type M c (lit "m200m")) (-1) 0 ms = (-1, e) /\ -1 <= e).
  { assert (Gi : forall i, 0 <= i -> exists e, mass_range M ltb (set_type M c (lit "m200m")) (-1) i ms = (-1, e) /\ -1 <= e).
    { clear -F. induction F as [|m ms [F1 F2] _ IH]; intros i Hi; cbn [mass_range].
      - exists (i - 1). split; [reflexivity|lia].
      - cbn [set_type m200mMin m200mMax]. rewrite F1, F2. cbn [Z.eqb Z.opp Pos.eqb andb negb]. apply IH. lia. }
    apply Gi. lia. }
  destruct G as (e & -> & He). cbn [fst snd set_range set_type idStart idEnd ids idType exclusionStrategy snap mult].
  destruct (Z.leb_spec (-1) e); [|lia]. unfold get_ids. cbn [Z.eqb Z.opp Pos.eqb negb]. rewrite Hreq.
  destruct req as [|r0 req]; [congruence|]. cbn [List.length Nat.ltb Nat.leb Nat.eqb].
  change (beq (lit "m200m") (lit "halo-id")) with false. rewrite beq_refl. rewrite (convert_ok ranked _ halos HC Hrne Hh). cbv iota. rewrite Hex.
  change (beq (lit "none") (lit "subhalo")) with false. change (beq (lit "none") (lit "neighbor")) with false.
  change (beq (lit "none") (lit "overlap")) with false. cbv iota. rewrite filter_none by reflexivity. now rewrite printed_map.
Qed.

(** ** C207 *)

(** What the validation accepts. *)
Theorem C207_accepted : forall c, validate M ltb zero c = true <->
  (idType _ c = lit "halo-id" \/ idType _ c = lit "m200m") /\
  (exclusionStrategy _ c = lit "none" \/ exclusionStrategy _ c = lit "subhalo" \/ exclusionStrategy _ c = lit "neighbor" \/
   exclusionStrategy _ c = lit "overlap" /\ ltb zero (exclusionRadiusMult _ c) = true) /\
  0 <= snap _ c /\ 0 < mult _ c /\ ltb (m200mMax _ c) zero = false.
Proof.
  intros c. unfold validate. rewrite !andb_true_iff, !orb_true_iff, andb_true_iff, !beq_true, !negb_true_iff, Z.eqb_neq, Z.ltb_ge, Z.leb_gt. split; intros H; decompose [and or] H; repeat split; auto 6; try lia.
Qed.
Print Assumptions C207_accepted.

(** An accepted configuration with an explicit list of halos of a non-empty catalogue is run without a panic, unless the strategy is subhalo. *)
Theorem C207_runs_partial : forall ranked c req halos, validate M ltb zero c = true -> exclusionStrategy _ c <> lit "subhalo" ->
  catalogue ranked -> plain c -> requested c req -> chosen ranked c req halos -> (forall k, Forall (fun j => (j < length ranked)%nat) (subhalos k)) -> ranked <> [] -> run c <> Panic.
Proof.
  intros ranked c req halos HV HX HC HP HR HCh Hsub Hr. apply C207_accepted in HV. destruct HV as (_ & HS & _).
  destruct HS as [E|[E|[E|[E _]]]].
  - rewrite (C26_none ranked c req halos HC HP HR HCh E). discriminate.
  - contradiction.
  - destruct (Forall_Exists_dec (fun id => In id ranked) (fun id => in_dec Z.eq_dec id ranked) halos) as [F|F].
    + destruct (C26_neighbor ranked c req halos HC HP HR HCh E F Hsub) as (g & -> & _). discriminate.
    + apply Exists_exists in F. destruct F as (id & H1 & H2). rewrite (C26_unknown_id ranked c req halos id HC HP HR HCh (or_intror E) Hsub Hr H1 H2). discriminate.
  - destruct (Forall_Exists_dec (fun id => In id ranked) (fun id => in_dec Z.eq_dec id ranked) halos) as [F|F].
    + destruct (C26_overlap ranked c req halos HC HP HR HCh E F) as (kept & _ & ->). discriminate.
    + apply Exists_exists in F. destruct F as (id & H1 & H2). rewrite (C26_unknown_id ranked c req halos id HC HP HR HCh (or_introl E) Hsub Hr H1 H2). discriminate.
Qed.
Print Assumptions C207_runs_partial.

(** The strategy subhalo passes the validation, and every such run panics. *)
Theorem C207_subhalo_refuted : forall ranked c req halos, exclusionStrategy _ c = lit "subhalo" -> catalogue ranked -> plain c -> requested c req -> chosen ranked c req halos -> run c = Panic.
Proof. intros ranked c req halos E HC HP HR HCh. destruct (start ranked c req halos HC HP HR HCh) as [_ ->]. rewrite E, beq_refl. reflexivity. Qed.
Print Assumptions C207_subhalo_refuted.

(** In a snapshot without halos, the strategies neighbor and overlap panic on every request, although no ID of the request is in the catalogue. *)
Theorem C207_empty_refuted : forall c req, exclusionStrategy _ c = lit "overlap" \/ exclusionStrategy _ c = lit "neighbor" ->
  catalogue [] -> plain c -> requested c req -> idType _ c = lit "halo-id" -> run c = Panic.
Proof.
  intros c req E HC HP HR Ht. destruct (start [] c req req HC HP HR (or_introl (conj Ht eq_refl))) as [_ ->]. destruct HC as (_ & E0 & _).
  destruct E as [-> | ->].
  - change (beq (lit "overlap") (lit "subhalo")) with false. change (beq (lit "overlap") (lit "neighbor")) with false. rewrite beq_refl. unfold find_overlap_subs. rewrite E0. reflexivity.
  - change (beq (lit "neighbor") (lit "subhalo")) with false. rewrite beq_refl. unfold read_sub_ids. rewrite E0. reflexivity.
Qed.
Print Assumptions C207_empty_refuted.
End ID.

(** ** A concrete catalogue: five halos with masses 90, 70, 50, 30, 10; the third is a subhalo of the first. *)
Definition x_ranked : list Z := [101; 205; 33; 47; 59].
Definition x_sorted (k : Z) : res (list Z) := if k =? -1 then Ok x_ranked else if k <? 5 then Ok (firstn (Z.to_nat (k + 1)) x_ranked) else Err.
Definition x_masses : res (list Z) := Ok [90; 70; 50; 30; 10].
Definition x_hosts (j : nat) : Z := if (j =? 2)%nat then 1 else 0.
Definition x_subs (j : nat) : list nat := if (j =? 0)%nat then [2%nat] else [].
Definition x_run := run Z Z.ltb 0 x_sorted x_masses x_hosts x_subs true (Ok [3]) 0 10.
Definition x_config (t : bytes) (l : list Z) (s e : Z) (mx mn : Z) (ex : bytes) : IDConfig Z :=
  {| idType := t; ids := l; idStart := s; idEnd := e; snap := 7; mult := 2; m200mMax := mx; m200mMin := mn;
     exclusionStrategy := ex; exclusionRadiusMult := 1 |}.

Example x_catalogue : catalogue x_sorted x_ranked.
Proof.
  split; [repeat (constructor; [cbn; intuition lia|]); constructor|]. split; [reflexivity|]. intros k Hk. cbn [length x_ranked] in Hk. unfold x_sorted.
  destruct (Z.eqb_spec k (-1)); [lia|]. destruct (Z.ltb_spec k 5); [reflexivity|cbn in Hk; lia].
Qed.

Example C26_nonvacuous :
  let c := x_config (lit "m200m") [1; 2; 0] (-1) (-1) 0 0 (lit "overlap") in
  plain Z.ltb 0 true 0 10 c /\ requested (Ok [3]) c [1; 2; 0] /\ chosen x_ranked c [1; 2; 0] [205; 33; 101] /\ Forall (fun id => In id x_ranked) [205; 33; 101] /\
  x_run c = Ok (Some [(205, 7); (205, 7); (101, 7); (101, 7)]) /\
  x_run (x_config (lit "m200m") [1; 0] (-1) (-1) 0 0 (lit "neighbor")) = Ok (Some [(205, 7); (205, 7); (101, 7); (101, 7); (33, 7); (33, 7)]) /\
  x_run (x_config (lit "halo-id") [] (-1) (-1) 0 0 (lit "none")) = Ok (Some [(3, 7); (3, 7)]) /\
  x_run (x_config (lit "halo-id") [5] (-1) (-1) 0 0 (lit "overlap")) = Err.
Proof.
  cbv zeta. split; [unfold plain; cbn; lia|]. split; [unfold requested; cbn; repeat split; try lia; try discriminate; now left|]. split.
  { right. split; [reflexivity|]. repeat (constructor; [split; [lia|reflexivity]|]). constructor. }
  split; [repeat (constructor; [cbn; tauto|]); constructor|]. repeat split; vm_compute; reflexivity.
Qed.

Example C49_nonvacuous :
  x_run (x_config (lit "halo-id") [] 101 104 0 0 (lit "none")) = Ok (Some [(101, 7); (101, 7); (102, 7); (102, 7); (103, 7); (103, 7)]) /\
  x_run (x_config (lit "m200m") [] 1 3 0 0 (lit "none")) = Ok (Some [(205, 7); (205, 7); (33, 7); (33, 7)]) /\
  x_run (x_config (lit "m200m") [] 1 1 0 0 (lit "none")) = Ok None.
Proof. repeat split; vm_compute; reflexivity. Qed.

Example C50_nonvacuous :
  decreasing Z.ltb [90; 70; 50; 30; 10] /\ weak_order Z Z.ltb /\
  x_run (x_config (lit "m200m") [4] (-1) (-1) 75 25 (lit "none")) = Ok (Some [(205, 7); (205, 7); (33, 7); (33, 7)]) /\
  x_run (x_config (lit "m200m") [4] (-1) (-1) 200 100 (lit "none")) = Panic /\
  x_run (x_config (lit "m200m") [4] (-1) (-1) 5 1 (lit "none")) = Ok (Some [(59, 7); (59, 7)]).
Proof.
  split; [repeat (constructor; [|repeat (constructor; [reflexivity|]); constructor]); constructor|]. split.
  { split; intros; rewrite ?Z.ltb_lt, ?Z.ltb_ge in *; lia. }
  repeat split; vm_compute; reflexivity.
Qed.

Print Assumptions C26_none.
Print Assumptions C26_overlap.
Print Assumptions C26_neighbor.
Print Assumptions C26_unknown_id.
Print Assumptions C49_end_dropped_refuted.
Print Assumptions C49_single_refuted.
Print Assumptions C49_inside_partial.
Print Assumptions C50_ranks_partial.
Print Assumptions C50_lightest_dropped_refuted.
Print Assumptions C50_all_lighter_refuted.
Print Assumptions C50_all_heavier_refuted.

Example C207_nonvacuous :
  let c := x_config (lit "m200m") [1; 2; 0] (-1) (-1) 0 0 (lit "overlap") in
  validate Z Z.ltb 0 c = true /\ exclusionStrategy _ c <> lit "subhalo" /\ (forall k, Forall (fun j => (j < length x_ranked)%nat) (x_subs k)) /\
  validate Z Z.ltb 0 (x_config (lit "halo-id") [101] (-1) (-1) 0 0 (lit "subhalo")) = true /\ x_run (x_config (lit "halo-id") [101] (-1) (-1) 0 0 (lit "subhalo")) = Panic /\
  catalogue (fun _ => Ok []) [].
Proof.
  cbv zeta. split; [reflexivity|]. split; [discriminate|]. split; [intros [|k]; repeat constructor|]. split; [reflexivity|]. split; [vm_compute; reflexivity|].
  split; [constructor|]. split; [reflexivity|]. intros k Hk. cbn in Hk. lia.
Qed.
