(** * C190, C191: MinMass and the open/close protocol of the buffers. *)
From Coq Require Import ZArith Reals Lra List Lia Bool.
From Verif Require Import LGadgetSpec BytesFacts OrderProofs GadgetProofs GadgetProofs2 LGadgetProofs BufModel Props_Gadget Props_LGadget.
From Verif Require BolshoiSpec BolshoiProofs Props_Bolshoi ShellRunModel LosModel.
Import List ListNotations.
Local Open Scope Z_scope.

(** ** Histories *)
Lemma step_mass fm files b c b' a : io_step fm files b c = Some (b', a) -> b_mass b' = b_mass b.
Proof.
  unfold io_step. destruct c as [f| |f| |f].
  - destruct (b_isopen b); [discriminate|]. destruct (files f) as [bytes|]; [|intros [= <- <-]; reflexivity]. cbn [b_mass].
    destruct (f_particles fm (b_mass b) bytes) as [[p|]|]; [| |discriminate]; intros [= <- <-]; reflexivity.
  - destruct (b_isopen b); [|discriminate]. intros [= <- <-]. reflexivity.
  - destruct (files f) as [bytes|]; [|intros [= <- <-]; reflexivity]. destruct (f_header fm bytes) as [[gh|]|]; [| |discriminate]; [|intros [= <- <-]; reflexivity].
    destruct (b_isopen b); [discriminate|]. cbn [b_mass b_isopen]. destruct (f_particles fm (b_mass b) bytes) as [[p|]|]; [| |discriminate]; intros [= <- <-]; reflexivity.
  - intros [= <- <-]. reflexivity.
  - destruct (files f) as [bytes|]; [|intros [= <- <-]; reflexivity]. destruct (f_total fm bytes) as [[n|]|]; [| |discriminate]; intros [= <- <-]; reflexivity.
Qed.
Lemma step_mass_answer fm files b c b' m : io_step fm files b c = Some (b', Mass m) -> m = b_mass b.
Proof.
  unfold io_step. destruct c as [f| |f| |f].
  - destruct (b_isopen b); [discriminate|]. destruct (files f) as [bytes|]; [|discriminate]. cbn [b_mass].
    destruct (f_particles fm (b_mass b) bytes) as [[p|]|]; discriminate.
  - destruct (b_isopen b); discriminate.
  - destruct (files f) as [bytes|]; [|discriminate]. destruct (f_header fm bytes) as [[gh|]|]; [| discriminate|discriminate].
    destruct (b_isopen b); [discriminate|]. cbn [b_mass b_isopen]. destruct (f_particles fm (b_mass b) bytes) as [[p|]|]; discriminate.
  - intros [= <- <-]. reflexivity.
  - destruct (files f) as [bytes|]; [|discriminate]. destruct (f_total fm bytes) as [[n|]|]; discriminate.
Qed.
Lemma step_particles fm files b c b' p : io_step fm files b c = Some (b', Particles p) -> exists f bytes, files f = Some bytes /\ f_particles fm (b_mass b) bytes = Some (Some p).
Proof.
  unfold io_step. destruct c as [f| |f| |f].
  - destruct (b_isopen b); [discriminate|]. destruct (files f) as [bytes|] eqn:Ef; [|discriminate]. cbn [b_mass].
    destruct (f_particles fm (b_mass b) bytes) as [[q|]|] eqn:Ep; [|discriminate|discriminate]. intros [= <- <-]. exists f, bytes. auto.
  - destruct (b_isopen b); discriminate.
  - destruct (files f) as [bytes|]; [|discriminate]. destruct (f_header fm bytes) as [[gh|]|]; [| discriminate|discriminate].
    destruct (b_isopen b); [discriminate|]. cbn [b_mass b_isopen]. destruct (f_particles fm (b_mass b) bytes) as [[q|]|]; discriminate.
  - discriminate.
  - destruct (files f) as [bytes|]; [|discriminate]. destruct (f_total fm bytes) as [[n|]|]; discriminate.
Qed.
Lemma run_answers fm files (P : Z -> answer -> Prop) : (forall b c b' a, io_step fm files b c = Some (b', a) -> P (b_mass b) a) ->
  forall cs b b' l, io_run fm files b cs = Some (b', l) -> Forall (P (b_mass b)) l.
Proof.
  intros H. induction cs as [|c cs IH]; intros b b' l E; cbn [io_run] in E; [injection E as <- <-; constructor|].
  destruct (io_step fm files b c) as [(b1, a)|] eqn:Es; [|discriminate]. destruct (io_run fm files b1 cs) as [(b2, l')|] eqn:Er; [|discriminate]. injection E as <- <-.
  constructor; [eapply H; eauto|]. rewrite <- (step_mass _ _ _ _ _ _ Es). eapply IH; eauto.
Qed.

(** ** C190 *)
Lemma lg_masses F sys e cap stale npartNum mass file xs vs ms ids : read_lgadget2 F sys e cap stale npartNum mass file = Some (Some (xs, vs, ms, ids)) -> forall m, In m ms -> m = mass.
Proof.
  unfold read_lgadget2. intros H.
  repeat match type of H with
  | (match ?x with _ => _ end) = _ => let E := fresh "E" in destruct x eqn:E; try discriminate H
  | Some (match ?x with _ => _ end) = _ => destruct x; try discriminate H
  end.
  injection H as <- <- <- <-. intros m Hm. eapply repeat_spec; eauto.
Qed.

(** LGadget-2: in every history of calls on a buffer that was made for a file of the simulation, MinMass is always the uniform mass of the total number of particles,
    and that is the mass of every particle that is ever read. *)
Theorem C190_lgadget : forall F sys cap stale uniform npartNum h parts rest total files cs b' answers, lg_good npartNum h parts ->
  lg_total LE npartNum (lgadget_file LE h parts ++ rest) = Some total ->
  exists b, new_lgadget LE uniform npartNum (lgadget_file LE h parts ++ rest) = Some (Some b) /\
    (io_run (lgadget_format F sys LE cap stale npartNum) files b cs = Some (b', answers) ->
     (forall m, In (Mass m) answers -> m = uniform total h) /\
     forall xs vs ms ids m, In (Particles (xs, vs, ms, ids)) answers -> In m ms -> m = uniform total h).
Proof.
  intros F sys cap stale uniform npartNum h parts rest total files cs b' answers G T. exists {| b_isopen := false; b_mass := uniform total h |}.
  destruct (C146_header_partial npartNum h parts rest G) as [Eh _]. split.
  - unfold new_lgadget, with_panic. rewrite Eh, T. unfold read_lgadget2_header in Eh. destruct (read_i32 LE (lgadget_file LE h parts ++ rest)); [reflexivity|discriminate].
  - intros E. pose proof (run_answers (lgadget_format F sys LE cap stale npartNum) files (fun mm a => match a with Mass m => m = mm | Particles (_, _, ms, _) => forall m, In m ms -> m = mm | _ => True end)) as K.
    assert (K1 : forall b c b1 a, io_step (lgadget_format F sys LE cap stale npartNum) files b c = Some (b1, a) ->
      match a with Mass m => m = b_mass b | Particles (_, _, ms, _) => forall m, In m ms -> m = b_mass b | _ => True end).
    { intros b c b1 a Es. destruct a as [p| |m| | |]; auto; [|eapply step_mass_answer; eauto]. destruct (step_particles _ _ _ _ _ _ Es) as (f & bytes & _ & Ep). destruct p as [[[xs vs] ms] ids]. eapply lg_masses. exact Ep. }
    specialize (K K1 cs _ _ _ E). rewrite Forall_forall in K. split.
    + intros m Hm. exact (K _ Hm).
    + intros xs vs ms ids m Hp Hm. exact (K _ Hp m Hm).
Qed.
Print Assumptions C190_lgadget.
(** ... and as many particles of that mass as there are make up the mean density of the box. *)
Theorem C190_uniform : forall count tw rhoM0, 0 < count -> (IZR count * uniform_mass count tw rhoM0 = rhoM0 * tw ^ 3)%R.
Proof. intros. unfold uniform_mass. field. apply not_0_IZR. lia. Qed.
Print Assumptions C190_uniform.

(** Gadget-2: MinMass is 0 in every history, whatever the masses of the particles are. *)
Theorem C190_gadget_refuted : forall F sys e cap stale c file files b cs b' answers m, new_gadget e c file = Some (Some b) ->
  io_run (gadget_format F sys e cap stale c) files b cs = Some (b', answers) -> In (Mass m) answers -> m = 0.
Proof.
  intros F sys e cap stale c file files b cs b' answers m N E Hm. unfold new_gadget in N. destruct (with_panic e file (read_gadget2_header e file)) as [[gh|]|]; try discriminate. injection N as <-.
  pose proof (run_answers (gadget_format F sys e cap stale c) files (fun mm a => match a with Mass m => m = mm | _ => True end)) as K.
  assert (K1 : forall b c0 b1 a, io_step (gadget_format F sys e cap stale c) files b c0 = Some (b1, a) -> match a with Mass m => m = b_mass b | _ => True end).
  { intros b c0 b1 a Es. destruct a as [p| |m'| | |]; auto. eapply step_mass_answer; eauto. }
  specialize (K K1 cs _ _ _ E). rewrite Forall_forall in K. exact (K _ Hm).
Qed.
Print Assumptions C190_gadget_refuted.
(** ... so that the density which shell mode gives to empty lines of sight is 0 whatever BackgroundRhoMult is. *)
Theorem C190_background_refuted : forall c f r, ShellRunModel.sc_minMass c = 0%R -> ShellRunModel.background_density c f r = 0%R.
Proof. intros c f r H. unfold ShellRunModel.background_density. rewrite H. cbv zeta. unfold Rdiv. ring. Qed.
Print Assumptions C190_background_refuted.
(** With the mass of the particles it is BackgroundRhoMult times the density of one (subsampled) particle in the kernel sphere, in units of the mean density. *)
Theorem C190_background : forall c f r, (0 < r)%R -> (0 < LosModel.c_rKernelMult (ShellRunModel.sc_load c))%R -> (0 < LosModel.f_rhoM f)%R ->
  let rad := (r * LosModel.c_rKernelMult (ShellRunModel.sc_load c))%R in
  (ShellRunModel.background_density c f r * LosModel.f_rhoM f * (4 / 3 * PI * rad ^ 3) = ShellRunModel.sc_background c * (ShellRunModel.sc_minMass c * INR (LosModel.c_sf3 (ShellRunModel.sc_load c))))%R.
Proof.
  intros c f r Hr Hk Hm rad. unfold ShellRunModel.background_density. cbv zeta. fold rad. assert (0 < rad)%R by (unfold rad; apply Rmult_lt_0_compat; assumption). pose proof PI_RGT_0. field. repeat split; lra.
Qed.
Print Assumptions C190_background.

Lemma bol_new_ok p e comment h1 h2 bnd K Nx Ny Nz groups n rest : BolshoiSpec.bol_good p comment h1 h2 bnd K Nx Ny Nz groups ->
  BolshoiModel.bol_new p e (BolshoiSpec.bol_start p e comment h1 h2 bnd n ++ rest) = Some h1.
Proof.
  intros G. destruct G as [G1 G2 G3 G4 G5 G6 G7 G8 G9 G10 G11 G12 G13]. unfold BolshoiModel.bol_new, BolshoiSpec.bol_start. rewrite <- !app_assoc.
  rewrite BolshoiProofs.fortran_read_ok by (try exact G1; cbn; lia).
  rewrite BolshoiProofs.fortran_read_ok by (try (apply BolshoiProofs.put_words_sum; assumption); destruct p; cbn; lia).
  rewrite BolshoiProofs.fortran_read_ok by (try (apply BolshoiProofs.put_words_sum; assumption); destruct p; cbn; lia).
  rewrite decode_put_words by assumption. reflexivity.
Qed.
(** Bolshoi: MinMass of a buffer (made for any file) is the mass of every particle that it reads from any file. *)
Theorem C190_bolshoi : forall F sys e cap stale comment h1 h2 bnd K Nx Ny Nz groups comment' h1' h2' bnd' K' Nx' Ny' Nz' groups' rest rest',
  (forall n, length (stale n) = n) -> BolshoiSpec.bol_good false comment h1 h2 bnd K Nx Ny Nz groups -> BolshoiSpec.bol_good false comment' h1' h2' bnd' K' Nx' Ny' Nz' groups' ->
  nth 4 h1' 0 < 2 ^ 31 -> (32 * length (concat groups') <= cap)%nat ->
  exists hd, BolshoiModel.bol_new false e (BolshoiSpec.bolshoi_file e comment h1 h2 bnd groups ++ rest) = Some hd /\
  exists xs vs ms ids, BolshoiModel.read_bolshoi F sys e cap stale (nth 10 hd 0) (BolshoiSpec.bolshoi_file e comment' h1' h2' bnd' groups' ++ rest') = Some (xs, vs, ms, ids) /\
    bolshoi_min_mass F hd = BolshoiModel.b_minmass F (nth 10 h1 0) /\ forall m, In m ms -> m = bolshoi_min_mass F hd.
Proof.
  intros F sys e cap stale comment h1 h2 bnd K Nx Ny Nz groups comment' h1' h2' bnd' K' Nx' Ny' Nz' groups' rest rest' Hst G G' Hg Hc. exists h1. split.
  - unfold BolshoiSpec.bolshoi_file. rewrite <- app_assoc. eapply bol_new_ok; eauto.
  - eexists _, _, _, _. split; [apply Props_Bolshoi.C153_bolshoi; eauto|]. split; [reflexivity|]. intros m Hm. eapply repeat_spec; eauto.
Qed.
Print Assumptions C190_bolshoi.

(** BolshoiP: the particles have the mass in the header of their file (word 11), MinMass is computed from the width of the box only: the two differ unless the header
    happens to have that mass, e.g. 1.35e8 Msun/h for a width of 250 Mpc/h. *)
Theorem C190_bolshoiP_refuted : forall F sys e cap stale sx sv comment h1 h2 bnd K Nx Ny Nz groups rest,
  (forall i n, length (stale i n) = n) -> (forall n, length (sx n) = n) -> (forall n, length (sv n) = n) ->
  BolshoiSpec.bol_good true comment h1 h2 bnd K Nx Ny Nz groups -> (8 * length (concat groups) <= cap)%nat -> nth 11 h1 0 <> BolshoiModel.b_minmass F (nth 10 h1 0) ->
  let file := BolshoiSpec.bolshoiP_file e comment h1 h2 bnd groups ++ rest in
  exists hd, BolshoiModel.bol_new true e file = Some hd /\
  exists xs vs ms ids, BolshoiModel.read_bolshoiP F sys e cap stale sx sv file = Some (xs, vs, ms, ids) /\ forall m, In m ms -> m <> bolshoi_min_mass F hd.
Proof.
  intros F sys e cap stale sx sv comment h1 h2 bnd K Nx Ny Nz groups rest H1 H2 H3 G Hc Hne file. exists h1. split.
  - unfold file, BolshoiSpec.bolshoiP_file. rewrite <- app_assoc. eapply bol_new_ok; eauto.
  - eexists _, _, _, _. split; [apply Props_Bolshoi.C153_bolshoiP; eauto|]. intros m Hm E. apply Hne. rewrite <- (repeat_spec _ _ _ Hm). exact E.
Qed.
Print Assumptions C190_bolshoiP_refuted.

(** A Gadget-2 snapshot with particles of masses 100, 100 and 56: Read, Close, MinMass. *)
Example C190_gadget_nonvacuous : let file := gadget_file LE 8 ex_header ex_context ex_parts in
  exists b b' xs vs ids, new_gadget LE ex_context file = Some (Some b) /\
  io_run (gadget_format ex_ops LE LE 1000 (repeat 7) ex_context) (fun _ => Some file) b [CRead 0; CClose; CMinMass] = Some (b', [Particles (xs, vs, [100; 100; 56], ids); Done; Mass 0]).
Proof. cbv zeta. eexists _, _, _, _, _. split; vm_compute; reflexivity. Qed.
(** An LGadget-2 file with two particles: MinMass, header, Read and Close. *)
Example C190_lgadget_nonvacuous : let file := lgadget_file LE lg_ex_header lg_ex_parts in
  exists b b' gh xs vs ids, new_lgadget LE (fun n _ => n + 1) 1 file = Some (Some b) /\ lg_total LE 1 file = Some 1 /\
  io_run (lgadget_format ex_ops LE LE 1000 (repeat 7) 2) (fun _ => Some file) b [CMinMass; CHeader 0; CRead 0; CClose; CMinMass] = Some (b', [Mass 2; HeaderOf gh; Particles (xs, vs, [2; 2], ids); Done; Mass 2]).
Proof. cbv zeta. eexists _, _, _, _, _, _. split; [|split]; vm_compute; reflexivity. Qed.

(** ** C191: the order of the calls *)
(** The calls come in turn: Read on a closed buffer opens it, Close on an open buffer closes it, ReadHeader needs a closed buffer; the others may come at any time. *)
Fixpoint in_turn (isopen : bool) (cs : list call) : Prop :=
  match cs with
  | [] => True
  | CRead _ :: cs => isopen = false /\ in_turn true cs
  | CClose :: cs => isopen = true /\ in_turn false cs
  | CHeader _ :: cs => isopen = false /\ in_turn false cs
  | _ :: cs => in_turn isopen cs
  end.
(** No file makes the functions of the format panic. *)
Definition calm (fm : format) (files : nat -> option (list Z)) : Prop := forall f bytes, files f = Some bytes -> (forall m, f_particles fm m bytes <> None) /\ f_header fm bytes <> None /\ f_total fm bytes <> None.

Lemma calm_step fm files b c : calm fm files -> match c with CRead _ | CHeader _ => b_isopen b = false | CClose => b_isopen b = true | _ => True end ->
  exists b' a, io_step fm files b c = Some (b', a) /\ b_isopen b' = match c with CRead _ => true | CClose | CHeader _ => false | _ => b_isopen b end /\
    match a with HeaderOf gh => exists f bytes, c = CHeader f /\ files f = Some bytes /\ f_header fm bytes = Some (Some gh) | _ => True end.
Proof.
  intros C H. unfold io_step. destruct c as [f| |f| |f].
  - rewrite H. destruct (files f) as [bytes|] eqn:Ef; [|eexists _, _; split; [reflexivity|split; [reflexivity|exact I]]]. destruct (C f bytes Ef) as (C1 & _). cbn [b_mass].
    destruct (f_particles fm (b_mass b) bytes) as [[p|]|] eqn:Ep; [| |destruct (C1 _ Ep)]; eexists _, _; (split; [reflexivity|split; [reflexivity|exact I]]).
  - rewrite H. eexists _, _. split; [reflexivity|split; [reflexivity|exact I]].
  - destruct (files f) as [bytes|] eqn:Ef; [|eexists _, _; split; [reflexivity|split; [exact H|exact I]]]. destruct (C f bytes Ef) as (C1 & C2 & _).
    destruct (f_header fm bytes) as [[gh|]|] eqn:Eh; [| |congruence]; [|eexists _, _; split; [reflexivity|split; [exact H|exact I]]].
    rewrite H. cbn [b_mass b_isopen]. destruct (f_particles fm (b_mass b) bytes) as [[p|]|] eqn:Ep; [| |destruct (C1 _ Ep)]; eexists _, _; (split; [reflexivity|split; [reflexivity|]]); [|exact I].
    exists f, bytes. auto.
  - eexists _, _. split; [reflexivity|split; [reflexivity|exact I]].
  - destruct (files f) as [bytes|] eqn:Ef; [|eexists _, _; split; [reflexivity|split; [reflexivity|exact I]]]. destruct (C f bytes Ef) as (_ & _ & C3).
    destruct (f_total fm bytes) as [[n|]|] eqn:En; [| |congruence]; eexists _, _; (split; [reflexivity|split; [reflexivity|exact I]]).
Qed.

(** Calls that come in turn never panic, whatever fails on the way (a failed Read must be closed, too). *)
Theorem C191_in_turn : forall fm files cs b, calm fm files -> in_turn (b_isopen b) cs -> exists b' answers, io_run fm files b cs = Some (b', answers) /\ length answers = length cs.
Proof.
  intros fm files cs. induction cs as [|c cs IH]; intros b C H; [exists b, []; split; reflexivity|].
  assert (H' : match c with CRead _ | CHeader _ => b_isopen b = false | CClose => b_isopen b = true | _ => True end) by (destruct c; cbn in H; tauto).
  destruct (calm_step fm files b c C H') as (b1 & a & E & O & _). cbn [io_run]. rewrite E. destruct (IH b1 C) as (b2 & l & E2 & L).
  - rewrite O. destruct c; cbn in H; tauto.
  - rewrite E2. exists b2, (a :: l). split; [reflexivity|]. cbn. congruence.
Qed.
Print Assumptions C191_in_turn.

(** A Read of an open buffer panics, so does Close of a closed one, and ReadHeader of an open one (if the header of the file can be read). *)
Theorem C191_out_of_turn : forall fm files b f, 
  (b_isopen b = true -> io_step fm files b (CRead f) = None) /\ (b_isopen b = false -> io_step fm files b CClose = None) /\
  (b_isopen b = true -> forall bytes gh, files f = Some bytes -> f_header fm bytes = Some (Some gh) -> io_step fm files b (CHeader f) = None).
Proof.
  intros fm files b f. split; [|split].
  - intros H. cbn [io_step]. rewrite H. reflexivity.
  - intros H. cbn [io_step]. rewrite H. reflexivity.
  - intros H bytes gh Ef Eh. cbn [io_step]. rewrite Ef, Eh, H. reflexivity.
Qed.
Print Assumptions C191_out_of_turn.

(** ReadHeader gives the header of the file, also when the particles cannot be read (then an error), and leaves the buffer closed. *)
Theorem C191_header : forall fm files b f bytes gh p, b_isopen b = false -> files f = Some bytes -> f_header fm bytes = Some (Some gh) -> f_particles fm (b_mass b) bytes = Some p ->
  io_step fm files b (CHeader f) = Some (b, match p with Some _ => HeaderOf gh | None => Failed end).
Proof. intros fm files b f bytes gh p H Ef Eh Ep. cbn [io_step]. rewrite Ef, Eh, H. cbn [b_mass b_isopen]. rewrite Ep. destruct b as [o m]. cbn in *. subst o. destruct p; reflexivity. Qed.
Print Assumptions C191_header.

(** A Read that fails leaves the buffer open: the next Read, even of a good file, panics. *)
Theorem C191_failed_read_refuted : forall fm files b f b', io_step fm files b (CRead f) = Some (b', Failed) -> forall f', io_step fm files b' (CRead f') = None.
Proof.
  intros fm files b f b' E f'. assert (b_isopen b' = true).
  { cbn [io_step] in E. destruct (b_isopen b); [discriminate|]. destruct (files f) as [bytes|]; [|injection E as <-; reflexivity].
    cbn [b_mass] in E. destruct (f_particles fm (b_mass b) bytes) as [[p|]|]; [discriminate| |discriminate]. injection E as <-. reflexivity. }
  cbn [io_step]. rewrite H. reflexivity.
Qed.
Print Assumptions C191_failed_read_refuted.

Example C191_nonvacuous : let file := lgadget_file LE lg_ex_header lg_ex_parts in let fm := lgadget_format ex_ops LE LE 1000 (repeat 7) 2 in
  let files f := match f with 0%nat => Some file | _ => None end in let b := {| b_isopen := false; b_mass := 5 |} in
  calm fm files /\ in_turn false [CHeader 0; CRead 1; CClose; CRead 0; CClose] /\ (exists r, io_run fm files b [CHeader 0; CRead 1; CClose; CRead 0; CClose] = Some r) /\ io_run fm files b [CRead 1; CRead 0] = None.
Proof.
  cbv zeta. split; [|split; [cbn; tauto|split; [eexists|]; vm_compute; reflexivity]].
  intros [|f] bytes E; [|discriminate]. injection E as <-. split; [intros m; vm_compute; discriminate|split; vm_compute; discriminate].
Qed.
