(** * Loading all files into all halos. *)
From Coq Require Import Reals Lra Lia ZArith List Bool Permutation.
From Verif Require Import LosModel LosSpec LoopFacts LosProofs LosProofs2 LosProofs3 LosProofs4 LosProofs5 LosProofs6 LosProofs7 LosProofs8 LosProofs9 InterpProofs ShellProofs ShellModel.
Import List ListNotations.
Local Open Scope R_scope.

(** ** Transform *)

(** x' is x moved by a number of box widths, close enough to the box for one more shift to suffice. *)
Definition wrapped1 (tw x x' : R) : Prop := - (tw / 2) <= x' <= tw + tw / 2 /\ exists k : Z, x' = x + IZR k * tw.

Lemma transform1_spec tw x x' x0 : 0 < tw -> 0 <= x0 <= tw -> wrapped1 tw x x' ->
  wrapped1 tw x (transform1 x' x0 tw) /\ nearest_image tw (x - x0) (transform1 x' x0 tw - x0).
Proof.
  intros Ht H0 (Hr & k & Hk). unfold transform1. cbv zeta. unfold wrapped1, nearest_image.
  destruct (Rltb_spec (tw / 2) (x' - x0)); [|destruct (Rltb_spec (x' - x0) (- (tw / 2)))].
  - split; split; try lra; exists (k - 1)%Z; rewrite minus_IZR, Hk; lra.
  - split; split; try lra; exists (k + 1)%Z; rewrite plus_IZR, Hk; lra.
  - split; split; try lra; exists k; lra.
Qed.

Definition wrapped (tw : R) (x x' : vec3) : Prop :=
  let '(a, b, c) := x in let '(a', b', c') := x' in wrapped1 tw a a' /\ wrapped1 tw b b' /\ wrapped1 tw c c'.

Lemma in_box_wrapped tw x : 0 <= tw -> in_box tw x -> wrapped tw x x.
Proof.
  intros Ht. destruct x as ((a, b), c). unfold in_box, wrapped, wrapped1. intros (A & B & C).
  repeat split; try lra; exists 0%Z; lra.
Qed.

Lemma transform_spec tw o xs xs' : 0 < tw -> in_box tw o -> Forall2 (wrapped tw) xs xs' ->
  Forall2 (wrapped tw) xs (transform o tw xs') /\ Forall2 (near tw o) xs (transform o tw xs').
Proof.
  intros Ht Ho H. unfold transform. destruct o as ((a0, b0), c0). destruct Ho as (A & B & C).
  induction H as [|((a, b), c) ((a', b'), c') xs xs' (W1 & W2 & W3) H (IH1 & IH2)]; cbn [map]; [split; constructor|].
  destruct (transform1_spec tw a a' a0 Ht A W1). destruct (transform1_spec tw b b' b0 Ht B W2). destruct (transform1_spec tw c c' c0 Ht C W3).
  split; constructor; auto; split; auto.
Qed.

(** ** Halos that share their workers *)

Record conform (K B N : nat) (L : R) (h : Halo) : Prop := {
  cf_core : good_core h; cf_rings : h_rings h = K; cf_bins : h_bins h = B; cf_n : h_n h = N;
  cf_r : 0 < h_rMin h < h_rMax h; cf_ratio : ln (h_rMax h) - ln (h_rMin h) = L }.

Lemma adds_conform K B N L h h' f : conform K B N L h -> good_core h' -> adds h h' f -> conform K B N L h'.
Proof. intros [] G' (p & -> & _). constructor; auto. Qed.

Lemma core_worker K B N L h w : conform K B N L h -> good_core w -> ln (h_rMax w) - ln (h_rMin w) = L -> worker_halo h w.
Proof.
  intros C G E. unfold worker_halo.
  destruct (Nat.eq_dec (h_rings w) (h_rings h)) as [E1|]; [|auto]. destruct (Nat.eq_dec (h_bins w) (h_bins h)) as [E2|]; [|auto].
  destruct (Nat.eq_dec (h_n w) (h_n h)) as [E3|]; [|auto]. right; right; right.
  split; [apply (gh_rays w G)|]. split; [apply (gh_profs w G)|]. intros ring q Eq.
  pose proof (core_dr w ring q G Eq) as Ed. destruct (gh_prof w G ring q Eq) as ((_ & Hl & _) & Np & Bp & _).
  split; [exact Np|]. split; [exact Bp|]. split; [exact Hl|]. rewrite Ed, E, E2, (cf_ratio _ _ _ _ _ C). reflexivity.
Qed.

(** The spheres that a file adds to a halo. *)
Definition loaded (c : LoadConf) (h : Halo) (f : PFile) (xs' : list vec) : list sphere :=
  let rad := h_rMax h * c_rKernelMult c / c_rMaxMult c in
  picks xs' (f_ms f) (map (halo_intersect1 h rad) xs') rad (c_sf3 c) (f_rhoM f) (kept (c_sf3 c) (length xs')).

Lemma added_core h profs ss ring i j : added (with_profs h profs) ss ring i j = added h ss ring i j.
Proof.
  unfold added, ring_rots. cbn [with_profs h_norms h_rots h_rMin h_rMax h_bins].
  destruct (nth_error (h_norms h) ring); [|reflexivity]. destruct (nth_error (h_rots h) ring); reflexivity.
Qed.

Lemma loaded_core c h profs f xs : loaded c (with_profs h profs) f xs = loaded c h f xs.
Proof. reflexivity. Qed.

Definition file_ok (f : PFile) : Prop := 0 < f_tw f /\ Forall (in_box (f_tw f)) (f_xs f) /\ (length (f_xs f) <= length (f_ms f))%nat.

Lemma load_file_spec c f K B N L : (0 < c_sf3 c)%nat -> (0 < B)%nat -> file_ok f -> forall idxs halos ws,
  NoDup idxs -> (forall a, In a idxs -> (a < length halos)%nat) ->
  Forall (conform K B N L) halos -> Forall (fun h => in_box (f_tw f) (h_origin h)) halos ->
  Forall (fun w => forall h, conform K B N L h -> worker_halo h w) ws ->
  exists halos' ws' xs', load_file c (length ws + 1) f idxs halos ws = Some (halos', ws', xs') /\
    length halos' = length halos /\ length ws' = length ws /\ Forall (fun w => forall h, conform K B N L h -> worker_halo h w) ws' /\
    forall a h, nth_error halos a = Some h -> exists h', nth_error halos' a = Some h' /\ conform K B N L h' /\
      (~ In a idxs -> h' = h) /\
      (In a idxs -> exists xs1, Forall2 (near (f_tw f) (h_origin h)) (f_xs f) xs1 /\ adds h h' (added h (loaded c h f xs1))).
Proof.
  intros Hsf HB (Htw & Hbox & Hms) idxs halos ws Hnd Hin HC HO HW. unfold load_file.
  assert (Hx0 : Forall2 (wrapped (f_tw f)) (f_xs f) (f_xs f)).
  { clear -Hbox Htw. induction Hbox; constructor; auto. apply in_box_wrapped; [lra|assumption]. }
  revert Hx0. generalize (f_xs f) at 2 3 as xs. revert halos ws Hin HC HO HW. revert Hnd. induction idxs as [|a idxs IH]; intros Hnd halos ws Hin HC HO HW xs Hx0; cbn [fold_left].
  - exists halos, ws, xs. split; [reflexivity|]. split; [reflexivity|]. split; [reflexivity|]. split; [exact HW|]. intros a h Ea. exists h. split; [exact Ea|].
    split; [rewrite Forall_forall in HC; apply HC; eapply nth_error_In; exact Ea|]. split; [reflexivity|intros []].
  - inversion Hnd as [|? ? Hna Hnd']; subst.
    assert (Ha : (a < length halos)%nat) by (apply Hin; left; reflexivity).
    destruct (nth_error halos a) as [h|] eqn:Ea; [|apply nth_error_None in Ea; lia]. unfold rd at 2. rewrite Ea.
    assert (Ch : conform K B N L h) by (rewrite Forall_forall in HC; apply HC; eapply nth_error_In; exact Ea).
    assert (Oh : in_box (f_tw f) (h_origin h)) by (rewrite Forall_forall in HO; apply (HO h); eapply nth_error_In; exact Ea).
    destruct (load_sphere_vecs_spec h ws xs (f_ms f) (f_tw f) (c_sf3 c) (c_rKernelMult c) (c_rMaxMult c) (f_rhoM f)) as (h' & ws' & E & G' & Lw & Fw & A).
    + apply Ch.
    + rewrite (cf_bins _ _ _ _ _ Ch). exact HB.
    + apply Ch.
    + eapply Forall_impl; [|exact HW]. intros w Hw. apply Hw, Ch.
    + apply Forall2_length in Hx0. lia.
    + exact Hsf.
    + rewrite E. destruct (transform_spec (f_tw f) (h_origin h) (f_xs f) xs Htw Oh Hx0) as (Hw1 & Hn1).
      set (xs1 := transform (h_origin h) (f_tw f) xs) in *.
      assert (Lx : length xs1 = length xs) by (unfold xs1, transform; destruct (h_origin h) as ((?, ?), ?); apply map_length).
      destruct (wr_some halos a h' h Ha) as (halos1 & Ew & _). rewrite Ew. destruct (nth_error_wr _ _ _ _ Ew) as (L1 & N1).
      assert (Ch' : conform K B N L h') by (eapply adds_conform; eauto).
      assert (Eo : h_origin h' = h_origin h) by (destruct A as (pr & -> & _); reflexivity).
      destruct (IH Hnd' halos1 ws') with (xs := xs1) as (halos2 & ws2 & xs2 & E2 & L2 & Lw2 & W2 & H2).
      * intros b Hb. rewrite L1. apply Hin. right; exact Hb.
      * apply Forall_forall. intros g Hg. apply In_nth_error in Hg. destruct Hg as (b & Hb). rewrite N1 in Hb.
        destruct (b =? a)%nat; [injection Hb as <-; exact Ch'|]. rewrite Forall_forall in HC; apply HC; eapply nth_error_In; exact Hb.
      * apply Forall_forall. intros g Hg. apply In_nth_error in Hg. destruct Hg as (b & Hb). rewrite N1 in Hb.
        destruct (b =? a)%nat; [injection Hb as <-; rewrite Eo; exact Oh|]. rewrite Forall_forall in HO; apply (HO g); eapply nth_error_In; exact Hb.
      * eapply Forall_impl; [|exact Fw]. intros w (Gw & R1 & R2) g Cg. apply (core_worker K B N L); auto.
        rewrite R1, R2. apply (cf_ratio _ _ _ _ _ Ch).
      * exact Hw1.
      * rewrite Lw in E2. exists halos2, ws2, xs2. split; [exact E2|]. split; [congruence|]. split; [congruence|]. split; [exact W2|].
        intros b g Eb. destruct (Nat.eq_dec b a) as [->|Hba].
        -- assert (g = h) by congruence. subst g.
           destruct (H2 a h') as (h2 & E2' & C2 & X2 & _); [rewrite N1, Nat.eqb_refl; reflexivity|].
           rewrite X2 in * by exact Hna. exists h'. split; [exact E2'|]. split; [exact Ch'|]. split; [intros Hc; exfalso; apply Hc; left; reflexivity|].
           intros _. exists xs1. split; [exact Hn1|]. unfold loaded. rewrite Lx. exact A.
        -- destruct (H2 b g) as (g2 & Eg2 & C2 & X2 & Y2); [rewrite N1; destruct (Nat.eqb_spec b a); [contradiction|exact Eb]|].
           exists g2. split; [exact Eg2|]. split; [exact C2|]. split.
           ++ intros Hc. apply X2. intros Hi. apply Hc. right; exact Hi.
           ++ intros [Hi|Hi]; [congruence|apply Y2; exact Hi].
Qed.

Lemma file_bins_spec halos f : NoDup (file_bins halos f) /\ forall a, In a (file_bins halos f) <->
  exists h, nth_error halos a = Some h /\ sheet_intersect (h_origin h) (h_rMax h) (f_origin f) (f_width f) (f_tw f) = true.
Proof.
  unfold file_bins.
  assert (Hg : forall l b, NoDup (map fst (filter (fun ih : nat * Halo => sheet_intersect (h_origin (snd ih)) (h_rMax (snd ih)) (f_origin f) (f_width f) (f_tw f)) (combine (seq b (length l)) l))) /\
    forall a, In a (map fst (filter (fun ih : nat * Halo => sheet_intersect (h_origin (snd ih)) (h_rMax (snd ih)) (f_origin f) (f_width f) (f_tw f)) (combine (seq b (length l)) l))) <->
      exists k h, a = (b + k)%nat /\ nth_error l k = Some h /\ sheet_intersect (h_origin h) (h_rMax h) (f_origin f) (f_width f) (f_tw f) = true).
  { induction l as [|h l IH]; intros b; cbn [length seq combine filter].
    - split; [constructor|]. intros a. split; [intros []|]. intros ([|k] & h & _ & E & _); discriminate.
    - destruct (IH (S b)) as (IH1 & IH2). cbn [snd].
      assert (Hs : forall a, (exists k g, a = (S b + k)%nat /\ nth_error l k = Some g /\ sheet_intersect (h_origin g) (h_rMax g) (f_origin f) (f_width f) (f_tw f) = true) ->
        exists k g, a = (b + k)%nat /\ nth_error (h :: l) k = Some g /\ sheet_intersect (h_origin g) (h_rMax g) (f_origin f) (f_width f) (f_tw f) = true).
      { intros a (k & g & Ea & Eg & Hs). exists (S k), g. repeat split; auto. lia. }
      destruct (sheet_intersect (h_origin h) (h_rMax h) (f_origin f) (f_width f) (f_tw f)) eqn:Es.
      + cbn [map fst]. split.
        * constructor; [|exact IH1]. rewrite IH2. intros (k & g & E & _). lia.
        * intros a. cbn [In]. rewrite IH2. split.
          -- intros [<-|H]; [exists 0%nat, h; repeat split; auto; lia|apply Hs, H].
          -- intros ([|k] & g & Ea & Eg & Hg); [left; lia|right]. exists k, g. repeat split; auto. lia.
      + split; [exact IH1|]. intros a. rewrite IH2. split; [apply Hs|].
        intros ([|k] & g & Ea & Eg & Hg); [cbn in Eg; injection Eg as <-; congruence|]. exists k, g. repeat split; auto. lia. }
  destruct (Hg halos 0%nat) as (H1 & H2). split; [exact H1|]. intros a. rewrite H2. split.
  - intros (k & h & -> & E & Hs). exists h. auto.
  - intros (h & E & Hs). exists a, h. auto.
Qed.

Definition meets (h : Halo) (f : PFile) : bool := sheet_intersect (h_origin h) (h_rMax h) (f_origin f) (f_width f) (f_tw f).

(** Every halo receives, from each file it meets, the particles at their images nearest to the halo. *)
Theorem sphere_loop_spec c K B N L files halos0 ws : (0 < c_sf3 c)%nat -> (0 < B)%nat ->
  Forall (fun f => file_ok f /\ Forall (fun h => in_box (f_tw f) (h_origin h)) halos0) files ->
  Forall (conform K B N L) halos0 -> Forall (fun w => forall h, conform K B N L h -> worker_halo h w) ws ->
  exists halos' ws', sphere_loop c (length ws + 1) files halos0 ws = Some (halos', ws') /\ length halos' = length halos0 /\
    length ws' = length ws /\ Forall (fun w => forall h, conform K B N L h -> worker_halo h w) ws' /\
    forall a h, nth_error halos0 a = Some h -> exists h' xss, nth_error halos' a = Some h' /\ conform K B N L h' /\
      Forall2 (fun f xs1 => Forall2 (near (f_tw f) (h_origin h)) (f_xs f) xs1) (filter (meets h) files) xss /\
      adds h h' (added h (concat (map (fun fx : PFile * list vec => loaded c h (fst fx) (snd fx)) (combine (filter (meets h) files) xss)))).
Proof.
  intros Hsf HB HF HC HW. unfold sphere_loop.
  set (W := (length ws + 1)%nat). assert (Hgen : forall fs halos ws, (length ws + 1)%nat = W -> Forall (fun f => file_ok f /\ Forall (fun h => in_box (f_tw f) (h_origin h)) halos0) fs ->
    Forall2 (fun h0 h => h_origin h = h_origin h0 /\ conform K B N L h) halos0 halos ->
    Forall (fun w => forall h, conform K B N L h -> worker_halo h w) ws ->
    exists halos' ws', fold_left (fun ost fi => do st <- ost; let '(halos, ws) := st in let '(f, idxs) := (fi : PFile * list nat) in
      do r <- load_file c W f idxs halos ws; let '(halos', ws', _) := r in Some (halos', ws'))
      (map (fun f => (f, file_bins halos0 f)) fs) (Some (halos, ws)) = Some (halos', ws') /\ length ws' = length ws /\ Forall (fun w => forall h, conform K B N L h -> worker_halo h w) ws' /\ length halos' = length halos0 /\
      forall a h0 h, nth_error halos0 a = Some h0 -> nth_error halos a = Some h -> (exists profs, h = with_profs h0 profs) ->
        exists h' xss, nth_error halos' a = Some h' /\ conform K B N L h' /\
        Forall2 (fun f xs1 => Forall2 (near (f_tw f) (h_origin h0)) (f_xs f) xs1) (filter (meets h0) fs) xss /\
        adds h h' (added h0 (concat (map (fun fx : PFile * list vec => loaded c h0 (fst fx) (snd fx)) (combine (filter (meets h0) fs) xss))))).
  { clearbody W. clear ws HW. induction fs as [|f fs IH]; intros halos ws HWn Hfs HH HW; cbn [map fold_left].
    - exists halos, ws. split; [reflexivity|]. split; [reflexivity|]. split; [exact HW|]. split; [symmetry; eapply Forall2_length; exact HH|].
      intros a h0 h E0 E (profs & ->). exists (with_profs h0 profs), []. split; [exact E|]. split.
      + clear -HH E. revert a E. induction HH as [|x y l l' (_ & H) HH IH]; intros [|a] E; try discriminate; [injection E as <-; exact H|apply (IH a E)].
      + cbn [filter combine map concat]. split; [constructor|]. eexists. split; [reflexivity|]. split; [reflexivity|].
        intros ring p Ep. exists p. split; [exact Ep|]. 
        assert (Cg : conform K B N L (with_profs h0 profs)).
        { clear -HH E. revert a E. induction HH as [|x y l l' (_ & H) HH IH]; intros [|a] E; try discriminate; [injection E as <-; exact H|apply (IH a E)]. }
        destruct (gh_prof _ (cf_core _ _ _ _ _ Cg) ring p Ep) as (Gp & _). split; [exact Gp|]. split; [apply same_shape_refl|].
        intros i j Hj. unfold added. cbn [flat_map density]. destruct (ring_rots h0 ring) as [(?, ?)|]; ring.
    - inversion Hfs as [|? ? (Hf & Hbox) Hfs']; subst.
      destruct (file_bins_spec halos0 f) as (Hnd & Hbin).
      pose proof (Forall2_length _ _ _ HH) as Lh.
      destruct (load_file_spec c f K B N L Hsf HB Hf (file_bins halos0 f) halos ws Hnd) as (halos1 & ws1 & xs1 & E1 & L1 & Lw1 & W1 & H1).
      + intros a Ha. apply Hbin in Ha. destruct Ha as (h & Ea & _). rewrite <- Lh. apply nth_error_Some. congruence.
      + clear -HH. induction HH as [|x y l l' (_ & H) HH IH]; constructor; auto.
      + clear -HH Hbox. induction HH as [|x y l l' (Ho & H) HH IH]; constructor; inversion Hbox; subst; auto. rewrite Ho. assumption.
      + exact HW.
      + rewrite E1.
        destruct (IH halos1 ws1 ltac:(congruence) Hfs') as (halos2 & ws2 & E2 & Lw2 & W2 & L2 & H2); [|exact W1|].
        * assert (Hall : forall a h0, nth_error halos0 a = Some h0 -> exists h1, nth_error halos1 a = Some h1 /\ h_origin h1 = h_origin h0 /\ conform K B N L h1).
          { intros a h0 E0. assert (Hh : exists h, nth_error halos a = Some h /\ h_origin h = h_origin h0 /\ conform K B N L h).
            { clear -HH E0. revert a E0. induction HH as [|x y l l' (Ho & H) HH IH]; intros [|a] E; try discriminate; [injection E as <-; exists y; auto|apply (IH a E)]. }
            destruct Hh as (h & Eh & Oh & Ch). destruct (H1 a h Eh) as (h1 & Eh1 & C1 & X1 & Y1).
            exists h1. split; [exact Eh1|]. split; [|exact C1].
            destruct (in_dec Nat.eq_dec a (file_bins halos0 f)) as [Hi|Hi]; [destruct (Y1 Hi) as (xs2 & _ & pr & -> & _); exact Oh|rewrite (X1 Hi); exact Oh]. }
          assert (L01 : length halos0 = length halos1) by congruence. clear -Hall L01. revert halos1 Hall L01.
          induction halos0 as [|h0 l IH]; intros [|h1 l1] Hall L01; try discriminate; constructor.
          -- destruct (Hall 0%nat h0 eq_refl) as (g & Eg & Hg). injection Eg as ->. exact Hg.
          -- apply IH; [|cbn in L01; lia]. intros a g Eg. apply (Hall (S a) g Eg).
        * exists halos2, ws2. split; [exact E2|]. split; [congruence|]. split; [exact W2|]. split; [exact L2|].
          intros a h0 h E0 Eh (profs & ->). destruct (H1 a _ Eh) as (h1 & Eh1 & C1 & X1 & Y1).
          assert (Hmem : In a (file_bins halos0 f) <-> meets h0 f = true).
          { rewrite Hbin. split; [intros (g & Eg & Hg); assert (g = h0) by congruence; subst; exact Hg|intros; exists h0; auto]. }
          cbn [filter]. destruct (meets h0 f) eqn:Em.
          -- destruct Y1 as (xsf & Hnear & A); [apply Hmem; reflexivity|].
             assert (Hp1 : exists profs1, h1 = with_profs h0 profs1) by (destruct A as (pr & -> & _); exists pr; reflexivity).
             destruct (H2 a h0 h1 E0 Eh1 Hp1) as (h2 & xss & Eh2 & C2 & F2 & A2).
             exists h2, (xsf :: xss). split; [exact Eh2|]. split; [exact C2|]. split; [constructor; [exact Hnear|exact F2]|].
             cbn [combine map concat fst snd]. apply adds_ext with (2 := adds_trans _ _ _ _ _ A A2).
             intros ring p i j Ep Hj. rewrite added_app, added_core, loaded_core. reflexivity.
          -- assert (Hn : ~ In a (file_bins halos0 f)) by (rewrite Hmem; discriminate). rewrite (X1 Hn) in *.
             destruct (H2 a h0 _ E0 Eh1 (ex_intro _ profs eq_refl)) as (h2 & xss & Eh2 & C2 & F2 & A2).
             exists h2, xss. auto. }
  assert (HH : Forall2 (fun h0 h => h_origin h = h_origin h0 /\ conform K B N L h) halos0 halos0)
    by (clear -HC; induction HC; constructor; auto).
 destruct (Hgen files halos0 ws eq_refl HF HH HW) as (halos' & ws' & E & Lw & Ww & L' & H).
  exists halos', ws'. split; [|split; [exact L'|split; [exact Lw|split; [exact Ww|]]]].
  - exact E.
  - intros a h Ea. destruct (H a h h Ea Ea) as (h' & xss & A & C & F & D); [exists (h_profs h); destruct h; reflexivity|].
    exists h', xss. auto.
Qed.
