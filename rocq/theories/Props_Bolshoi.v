(** * C153-C156: Bolshoi and BolshoiP files. *)
From Coq Require Import ZArith Reals Lra List Lia Bool Permutation.
From Verif Require Import BolshoiSpec BolshoiProofs BolshoiProofs2 BolshoiProofs3 BolshoiProofs4 BolshoiFloat.
Import List ListNotations.
Local Open Scope Z_scope.

(** What reading a file returns for a list of particles: positions, velocities times the scale factor (word 0 of the header), one mass for all, ids. *)
Definition returned (F : bops) (pos : particle -> list Z) (a mass : Z) (ps : list particle) : list (list Z) * list (list Z) * list Z * list Z :=
  (map pos ps, map (fun p => map (fun v => b_mul F v (b_scale F a)) (p_v p)) ps, repeat mass (length ps), map p_id ps).
Definition returnedP (F : bops) (a mass : Z) (ps : list particle) : list (list Z) * list (list Z) * list Z * list Z :=
  (map p_x ps, map (fun p => map (fun v => b_mul F (b_scale F a) v) (p_v p)) ps, repeat mass (length ps), map p_id ps).

(** ** C153 *)
(** Reading Bolshoi file number K, for any float arithmetic, byte order, machine, group structure and old buffer contents: exactly the particles in the cell of
    the file, in file order, each with its own position (in box units), velocity and id, and the mass that MinMass reports. *)
Theorem C153_bolshoi : forall F sys e cap stale bw0 comment h1 h2 bnd K Nx Ny Nz groups rest,
  (forall n, length (stale n) = n) -> bol_good false comment h1 h2 bnd K Nx Ny Nz groups -> nth 4 h1 0 < 2 ^ 31 ->
  (32 * length (concat groups) <= cap)%nat ->
  read_bolshoi F sys e cap stale bw0 (bolshoi_file e comment h1 h2 bnd groups ++ rest) =
  Some (returned F (position_of F h1) (nth 0 h1 0) (b_minmass F bw0)
    (filter (fun p => in_file_cell F (nth 10 h1 0) Nx Ny Nz K (position_of F h1 p)) (concat groups))).
Proof.
  intros F sys e cap stale bw0 comment h1 h2 bnd K Nx Ny Nz groups rest Hst G Hg Hc. destruct (bg_pos _ _ _ _ _ _ _ _ _ _ G) as (X & Y & Z).
  destruct (cell_split Nx Ny Nz K X Y Z (bg_range _ _ _ _ _ _ _ _ _ _ G)) as (ix & iy & iz & EK & Ix & Iy & Iz).
  rewrite (read_bolshoi_ok F sys e cap stale bw0 comment h1 h2 bnd K Nx Ny Nz groups rest ix iy iz Hst G Hg Hc EK Ix Iy Iz). unfold returned.
  assert (E : forall x, in_file_cell F (nth 10 h1 0) Nx Ny Nz K x = in_cell F (nth 10 h1 0) Nx Ny Nz ix iy iz x) by (intros; rewrite EK; apply file_cell; lia).
  rewrite (filter_ext (fun p => in_file_cell F (nth 10 h1 0) Nx Ny Nz K (position_of F h1 p)) _ (fun p => E (position_of F h1 p))). reflexivity.
Qed.
Print Assumptions C153_bolshoi.

(** The same for BolshoiP files; the mass is the one in the file's header (word 11). *)
Theorem C153_bolshoiP : forall F sys e cap stale sx sv comment h1 h2 bnd K Nx Ny Nz groups rest,
  (forall i n, length (stale i n) = n) -> (forall n, length (sx n) = n) -> (forall n, length (sv n) = n) ->
  bol_good true comment h1 h2 bnd K Nx Ny Nz groups -> (8 * length (concat groups) <= cap)%nat ->
  read_bolshoiP F sys e cap stale sx sv (bolshoiP_file e comment h1 h2 bnd groups ++ rest) =
  Some (returnedP F (nth 0 h1 0) (nth 11 h1 0) (filter (fun p => in_file_cell F (nth 10 h1 0) Nx Ny Nz K (p_x p)) (concat groups))).
Proof.
  intros F sys e cap stale sx sv comment h1 h2 bnd K Nx Ny Nz groups rest Hst Hsx Hsv G Hc. destruct (bg_pos _ _ _ _ _ _ _ _ _ _ G) as (X & Y & Z).
  destruct (cell_split Nx Ny Nz K X Y Z (bg_range _ _ _ _ _ _ _ _ _ _ G)) as (ix & iy & iz & EK & Ix & Iy & Iz).
  rewrite (read_bolshoiP_ok F sys e cap stale sx sv comment h1 h2 bnd K Nx Ny Nz groups rest ix iy iz Hst Hsx Hsv G Hc EK Ix Iy Iz). unfold returnedP.
  assert (E : forall x, in_file_cell F (nth 10 h1 0) Nx Ny Nz K x = in_cell F (nth 10 h1 0) Nx Ny Nz ix iy iz x) by (intros; rewrite EK; apply file_cell; lia).
  rewrite (filter_ext (fun p => in_file_cell F (nth 10 h1 0) Nx Ny Nz K (p_x p)) _ (fun p => E (p_x p))). reflexivity.
Qed.
Print Assumptions C153_bolshoiP.

(** ** C154 *)
(** Without rounding at the faces of the cells: if every file holds the particles of its cell (and any others, such as copies of its neighbours' particles), then
    reading all files returns every particle whose coordinates are in (0, W] exactly once. *)
Theorem C154_once_partial : forall F val fin sys e cap stale bw0 comment h1 h2 bnd Nx Ny Nz groups parts,
  let W := nth 10 h1 0 in
  unrounded F val fin W Nx -> unrounded F val fin W Ny -> unrounded F val fin W Nz -> (0 < val W)%R -> 0 < Nx -> 0 < Ny -> 0 < Nz ->
  (forall n, length (stale n) = n) -> nth 4 h1 0 < 2 ^ 31 ->
  (forall K, 1 <= K <= Nx * Ny * Nz -> bol_good false comment h1 (h2 K) bnd K Nx Ny Nz (groups K) /\ (32 * length (concat (groups K)) <= cap)%nat) ->
  (forall p, In p parts -> inside val fin W (position_of F h1 p)) ->
  (forall K, 1 <= K <= Nx * Ny * Nz -> let here p := in_file_cell F W Nx Ny Nz K (position_of F h1 p) in
     Permutation (filter here (concat (groups K))) (filter here parts)) ->
  exists out, (forall K, 1 <= K <= Nx * Ny * Nz ->
      read_bolshoi F sys e cap stale bw0 (bolshoi_file e comment h1 (h2 K) bnd (groups K)) = Some (returned F (position_of F h1) (nth 0 h1 0) (b_minmass F bw0) (out K))) /\
    Permutation (flat_map out (file_numbers (Nx * Ny * Nz))) parts.
Proof.
  intros F val fin sys e cap stale bw0 comment h1 h2 bnd Nx Ny Nz groups parts W Ux Uy Uz HW X Y Z Hst Hg HG Hin Hp.
  set (here := fun K p => in_file_cell F W Nx Ny Nz K (position_of F h1 p)).
  exists (fun K => filter (here K) (concat (groups K))). split.
  - intros K HK. destruct (HG K HK) as (G & Hc). rewrite <- (app_nil_r (bolshoi_file e comment h1 (h2 K) bnd (groups K))).
    exact (C153_bolshoi F sys e cap stale bw0 comment h1 (h2 K) bnd K Nx Ny Nz (groups K) [] Hst G Hg Hc).
  - rewrite (flat_map_perm _ (fun K => filter (here K) parts)) by (intros K HK; apply file_numbers_in in HK; exact (Hp K HK)).
    apply classes_perm; [apply file_numbers_nodup|]. intros p Hi. specialize (Hin p Hi).
    destruct (cell_exists F val fin W Nx Ny Nz Ux Uy Uz (conj X (conj Y Z)) HW _ Hin) as (K & HK & Hc).
    exists K. split; [now apply file_numbers_in|]. split; [exact Hc|]. intros K' HK' Hc'. apply file_numbers_in in HK'.
    exact (cell_unique F val fin W Nx Ny Nz Ux Uy Uz (conj X (conj Y Z)) HW _ K' K Hin HK' HK Hc' Hc).
Qed.
Print Assumptions C154_once_partial.

Theorem C154_onceP_partial : forall F val fin sys e cap stale sx sv comment h1 h2 bnd Nx Ny Nz groups parts,
  let W := nth 10 h1 0 in
  unrounded F val fin W Nx -> unrounded F val fin W Ny -> unrounded F val fin W Nz -> (0 < val W)%R -> 0 < Nx -> 0 < Ny -> 0 < Nz ->
  (forall i n, length (stale i n) = n) -> (forall n, length (sx n) = n) -> (forall n, length (sv n) = n) ->
  (forall K, 1 <= K <= Nx * Ny * Nz -> bol_good true comment h1 (h2 K) bnd K Nx Ny Nz (groups K) /\ (8 * length (concat (groups K)) <= cap)%nat) ->
  (forall p, In p parts -> inside val fin W (p_x p)) ->
  (forall K, 1 <= K <= Nx * Ny * Nz -> let here p := in_file_cell F W Nx Ny Nz K (p_x p) in
     Permutation (filter here (concat (groups K))) (filter here parts)) ->
  exists out, (forall K, 1 <= K <= Nx * Ny * Nz ->
      read_bolshoiP F sys e cap stale sx sv (bolshoiP_file e comment h1 (h2 K) bnd (groups K)) = Some (returnedP F (nth 0 h1 0) (nth 11 h1 0) (out K))) /\
    Permutation (flat_map out (file_numbers (Nx * Ny * Nz))) parts.
Proof.
  intros F val fin sys e cap stale sx sv comment h1 h2 bnd Nx Ny Nz groups parts W Ux Uy Uz HW X Y Z Hst Hsx Hsv HG Hin Hp.
  set (here := fun K p => in_file_cell F W Nx Ny Nz K (p_x p)).
  exists (fun K => filter (here K) (concat (groups K))). split.
  - intros K HK. destruct (HG K HK) as (G & Hc). rewrite <- (app_nil_r (bolshoiP_file e comment h1 (h2 K) bnd (groups K))).
    exact (C153_bolshoiP F sys e cap stale sx sv comment h1 (h2 K) bnd K Nx Ny Nz (groups K) [] Hst Hsx Hsv G Hc).
  - rewrite (flat_map_perm _ (fun K => filter (here K) parts)) by (intros K HK; apply file_numbers_in in HK; exact (Hp K HK)).
    apply classes_perm; [apply file_numbers_nodup|]. intros p Hi. specialize (Hin p Hi).
    destruct (cell_exists F val fin W Nx Ny Nz Ux Uy Uz (conj X (conj Y Z)) HW _ Hin) as (K & HK & Hc).
    exists K. split; [now apply file_numbers_in|]. split; [exact Hc|]. intros K' HK' Hc'. apply file_numbers_in in HK'.
    exact (cell_unique F val fin W Nx Ny Nz Ux Uy Uz (conj X (conj Y Z)) HW _ K' K Hin HK' HK Hc' Hc).
Qed.
Print Assumptions C154_onceP_partial.

(** A particle with a coordinate 0 (the lower face of the box) is in none of the cells, even without rounding: it is returned from no file. *)
Theorem C154_lower_face_refuted : forall F val fin W Nx Ny Nz K x i, unrounded F val fin W Nx -> unrounded F val fin W Ny -> unrounded F val fin W Nz ->
  (0 < val W)%R -> 0 < Nx -> 0 < Ny -> 0 < Nz -> 1 <= K <= Nx * Ny * Nz -> (i < 3)%nat -> (forall j, (j < 3)%nat -> fin (nth j x 0)) -> val (nth i x 0) = 0%R ->
  in_file_cell F W Nx Ny Nz K x = false.
Proof.
  intros F val fin W Nx Ny Nz K x i Ux Uy Uz HW X Y Z HK Hi Hf H0.
  destruct (cell_split Nx Ny Nz K X Y Z HK) as (ix & iy & iz & -> & Ix & Iy & Iz). rewrite file_cell by lia. unfold in_cell.
  assert (C : i = 0%nat \/ i = 1%nat \/ i = 2%nat) by lia. destruct C as [-> | [-> | ->]].
  - rewrite (slab_zero F val fin W Nx Ux X HW ix (nth 0 x 0) Ix (Hf 0%nat ltac:(lia)) ltac:(lra)). reflexivity.
  - rewrite (slab_zero F val fin W Ny Uy Y HW iy (nth 1 x 0) Iy (Hf 1%nat ltac:(lia)) ltac:(lra)). apply andb_false_iff. left. apply andb_false_r.
  - rewrite (slab_zero F val fin W Nz Uz Z HW iz (nth 2 x 0) Iz (Hf 2%nat ltac:(lia)) ltac:(lra)). apply andb_false_r.
Qed.
Print Assumptions C154_lower_face_refuted.

(** With IEEE single precision, 12 cells along x and a box of width 250 (1132068864 is 250 in single precision): a particle at x = 145.83334350585938, y = z = 100
    is returned from none of the twelve files, and one at x = 125.00000762939453 from two of them, although every file holds both. *)
Definition r_h1 : list Z := [1065353216; 0; 0; 0; 0; 0; 0; 0; 0; 0; 1132068864; 7].
Definition r_h2 (K : Z) : list Z := [K; 12; 1; 1; 0; 0].
Definition r_lost : particle := {| p_x := [1125242198; 1120403456; 1120403456]; p_v := [0; 0; 0]; p_m := 0; p_id := 5 |}.
Definition r_twice : particle := {| p_x := [1123680257; 1120403456; 1120403456]; p_v := [0; 0; 0]; p_m := 0; p_id := 6 |}.

Lemma r_good K : 1 <= K <= 12 -> bol_good true (repeat 32 45) r_h1 (r_h2 K) (repeat 0 6) K 12 1 1 [[r_lost; r_twice]].
Proof.
  intros HK. constructor; try reflexivity; try lia.
  - unfold r_h1, bh1_layout. cbn [repeat]. repeat (constructor; [unfold word; cbn; lia|]). constructor.
  - unfold r_h2, bh2_layout. cbn [repeat]. repeat (constructor; [unfold word; cbn; lia|]). constructor.
  - cbn [repeat]. repeat (constructor; [unfold word; cbn; lia|]). constructor.
  - repeat constructor; cbn; unfold word, fits; cbn; lia.
Qed.

Theorem C154_rounding_refuted : forall scale minmass sys e cap stale sx sv, (forall i n, length (stale i n) = n) -> (forall n, length (sx n) = n) -> (forall n, length (sv n) = n) ->
  (16 <= cap)%nat ->
  let F := ieee32 scale minmass in
  let ids K := match read_bolshoiP F sys e cap stale sx sv (bolshoiP_file e (repeat 32 45) r_h1 (r_h2 K) (repeat 0 6) [[r_lost; r_twice]]) with
               | Some (_, _, _, ids) => ids | None => [] end in
  flat_map ids (file_numbers 12) = [6; 6].
Proof.
  intros scale minmass sys e cap stale sx sv H1 H2 H3 Hc F ids.
  assert (E : forall K, 1 <= K <= 12 -> ids K = map p_id (filter (fun p => in_file_cell F 1132068864 12 1 1 K (p_x p)) [r_lost; r_twice])).
  { intros K HK. unfold ids. rewrite <- (app_nil_r (bolshoiP_file _ _ _ _ _ _)).
    rewrite (C153_bolshoiP F sys e cap stale sx sv _ r_h1 (r_h2 K) _ K 12 1 1 [[r_lost; r_twice]] [] H1 H2 H3 (r_good K HK)) by exact Hc. reflexivity. }
  change (file_numbers 12) with [1; 2; 3; 4; 5; 6; 7; 8; 9; 10; 11; 12]. cbn [flat_map]. rewrite !E by lia.
  clear E ids. unfold F. cbn [filter r_lost r_twice p_x].
  assert (A : forall K, In K [1; 2; 3; 4; 5; 6; 7; 8; 9; 10; 11; 12] -> in_file_cell (ieee32 scale minmass) 1132068864 12 1 1 K [1125242198; 1120403456; 1120403456] = false).
  { intros K HK. repeat (destruct HK as [<-|HK]; [vm_compute; reflexivity|]). destruct HK. }
  assert (B : forall K, In K [1; 2; 3; 4; 5; 8; 9; 10; 11; 12] -> in_file_cell (ieee32 scale minmass) 1132068864 12 1 1 K [1123680257; 1120403456; 1120403456] = false).
  { intros K HK. repeat (destruct HK as [<-|HK]; [vm_compute; reflexivity|]). destruct HK. }
  assert (B2 : forall K, In K [6; 7] -> in_file_cell (ieee32 scale minmass) 1132068864 12 1 1 K [1123680257; 1120403456; 1120403456] = true).
  { intros K HK. repeat (destruct HK as [<-|HK]; [vm_compute; reflexivity|]). destruct HK. }
  rewrite !A by (cbn; tauto). rewrite !B by (cbn; tauto). rewrite !B2 by (cbn; tauto). reflexivity.
Qed.
Print Assumptions C154_rounding_refuted.

(** ** C155 *)
(** ReadHeader: N is the number of particles in the file, Origin and Width are the bounds of the cell; all returned particles are in it. *)
Theorem C155_header_partial : forall F p e comment h1 h2 bnd K Nx Ny Nz groups rest, bol_good p comment h1 h2 bnd K Nx Ny Nz groups ->
  exists hd, bol_read_header F p e (bol_start p e comment h1 h2 bnd (length (concat groups)) ++ rest) = Some hd /\
    bd_total hd = nth 10 h1 0 /\ bd_n hd = Z.of_nat (length (concat groups)) /\
    forall x, in_file_cell F (nth 10 h1 0) Nx Ny Nz K x = true -> forall i, (i < 3)%nat ->
      b_lt F (nth i (bd_origin hd) 0) (nth i x 0) = true /\ b_le F (nth i x 0) (b_add F (nth i (bd_origin hd) 0) (nth i (bd_width hd) 0)) = true.
Proof.
  intros F p e comment h1 h2 bnd K Nx Ny Nz groups rest G. destruct (bg_pos _ _ _ _ _ _ _ _ _ _ G) as (X & Y & Z).
  destruct (cell_split Nx Ny Nz K X Y Z (bg_range _ _ _ _ _ _ _ _ _ _ G)) as (ix & iy & iz & EK & Ix & Iy & Iz).
  eexists. split; [exact (bol_file_header F p e comment h1 h2 bnd K Nx Ny Nz groups ix iy iz rest G EK Ix Iy Iz)|]. cbn [bd_total bd_n bd_origin bd_width].
  split; [reflexivity|]. split; [reflexivity|]. intros x Hx i Hi. rewrite EK, file_cell in Hx by lia. unfold in_cell, in_slab in Hx.
  apply andb_prop in Hx as (Hx & Hz). apply andb_prop in Hx as (Hx & Hy). apply andb_prop in Hx, Hy, Hz.
  assert (C : i = 0%nat \/ i = 1%nat \/ i = 2%nat) by lia. destruct C as [-> | [-> | ->]]; assumption.
Qed.
Print Assumptions C155_header_partial.

(** N is not the number of particles that Read returns: it is so exactly if all particles of the file are in its cell. *)
Theorem C155_n_refuted : forall F sys e cap stale sx sv comment h1 h2 bnd K Nx Ny Nz groups xs vs ms ids,
  (forall i n, length (stale i n) = n) -> (forall n, length (sx n) = n) -> (forall n, length (sv n) = n) ->
  bol_good true comment h1 h2 bnd K Nx Ny Nz groups -> (8 * length (concat groups) <= cap)%nat ->
  let file := bolshoiP_file e comment h1 h2 bnd groups in
  read_bolshoiP F sys e cap stale sx sv file = Some (xs, vs, ms, ids) ->
  exists hd, bol_read_header F true e file = Some hd /\
    (bd_n hd = Z.of_nat (length xs) <-> forall p, In p (concat groups) -> in_file_cell F (nth 10 h1 0) Nx Ny Nz K (p_x p) = true).
Proof.
  intros F sys e cap stale sx sv comment h1 h2 bnd K Nx Ny Nz groups xs vs ms ids H1 H2 H3 G Hc file HR.
  rewrite <- (app_nil_r file) in HR. unfold file in HR. rewrite (C153_bolshoiP F sys e cap stale sx sv comment h1 h2 bnd K Nx Ny Nz groups [] H1 H2 H3 G Hc) in HR.
  injection HR as <- _ _ _. unfold file, bolshoiP_file.
  destruct (C155_header_partial F true e comment h1 h2 bnd K Nx Ny Nz groups (flat_map (fun g => frecord e (put_int e 4 (Z.of_nat (length g)))
                     ++ frecord e (axis_block e p_x 0 g ++ axis_block e p_x 1 g ++ axis_block e p_x 2 g)
                     ++ frecord e (axis_block e p_v 0 g ++ axis_block e p_v 1 g ++ axis_block e p_v 2 g)
                     ++ frecord e (flat_map (fun p => put e 4 (p_m p)) g ++ flat_map (fun p => put_int e 8 (p_id p)) g)) groups) G) as (hd & E & _ & N & _).
  exists hd. split; [exact E|]. rewrite N, map_length. generalize (concat groups). clear. intros l. set (f := fun p : particle => in_file_cell F (nth 10 h1 0) Nx Ny Nz K (p_x p)).
  assert (L : forall l, (length (filter f l) <= length l)%nat) by (clear; induction l as [|a l IH]; cbn; [lia|]; destruct (f a); cbn; lia).
  split.
  - intros H. assert (H' : length l = length (filter f l)) by lia. clear H. induction l as [|a l IH]; intros p Hp; [destruct Hp|]. cbn [filter] in H'. fold (f a) in H'.
    pose proof (L l). destruct (f a) eqn:Ea; cbn [length] in H'; [|lia]. destruct Hp as [<-|Hp]; [exact Ea|]. apply IH; [lia|exact Hp].
  - intros H. f_equal. induction l as [|a l IH]; [reflexivity|]. cbn [filter]. fold (f a). unfold f at 1. rewrite (H a (or_introl eq_refl)). cbn [length]. f_equal. apply IH.
    intros p Hp. apply H. now right.
Qed.
Print Assumptions C155_n_refuted.

(** ** C156 *)
(** A file that was cut off anywhere is never read: the run stops with a panic. *)
Theorem C156_cut_bolshoi : forall F sys e cap stale bw0 comment h1 h2 bnd K Nx Ny Nz groups k,
  (forall n, length (stale n) = n) -> bol_good false comment h1 h2 bnd K Nx Ny Nz groups -> Forall (fun g => g <> []) groups ->
  (32 * length (concat groups) <= cap)%nat -> (k < length (bolshoi_file e comment h1 h2 bnd groups))%nat ->
  read_bolshoi F sys e cap stale bw0 (firstn k (bolshoi_file e comment h1 h2 bnd groups)) = None.
Proof. exact cut_bolshoi. Qed.
Print Assumptions C156_cut_bolshoi.
Theorem C156_cut_bolshoiP : forall F sys e cap stale sx sv comment h1 h2 bnd K Nx Ny Nz groups k,
  (forall i n, length (stale i n) = n) -> bol_good true comment h1 h2 bnd K Nx Ny Nz groups -> Forall (fun g => g <> []) groups ->
  (8 * length (concat groups) <= cap)%nat -> (k < length (bolshoiP_file e comment h1 h2 bnd groups))%nat ->
  read_bolshoiP F sys e cap stale sx sv (firstn k (bolshoiP_file e comment h1 h2 bnd groups)) = None.
Proof. exact cut_bolshoiP. Qed.
Print Assumptions C156_cut_bolshoiP.

(** ** Examples *)
(** Integers as floats: a box of width 8, two cells along x, one in the other directions. *)
Definition int_ops : bops := {| b_add := Z.add; b_sub := Z.sub; b_mul := Z.mul; b_div := Z.div; b_lt := Z.ltb; b_le := Z.leb; b_one := 1; b_int := fun n => n;
  b_scale := fun a => a; b_minmass := fun w => w * 3 |}.
Definition x_h1 : list Z := [2; 0; 0; 0; 8; 0; 0; 0; 0; 0; 8].
Definition x_h2 (K : Z) : list Z := [K; 2; 1; 1; 0].
Definition x_part (x y z id : Z) : particle := {| p_x := [x; y; z]; p_v := [1; 2; 3]; p_m := 0; p_id := id |}.
Definition x_parts : list particle := [x_part 3 9 5 10; x_part 6 2 2 11; x_part 5 3 4 12].
Example C153_nonvacuous : bol_good false (repeat 32 45) x_h1 (x_h2 2) (repeat 0 6) 2 2 1 1 [[x_part 3 9 5 10; x_part 6 2 2 11]; [x_part 5 3 4 12]] /\
  read_bolshoi int_ops LE BE 1000 (repeat 9) 8 (bolshoi_file BE (repeat 32 45) x_h1 (x_h2 2) (repeat 0 6) [[x_part 3 9 5 10; x_part 6 2 2 11]; [x_part 5 3 4 12]]) =
    Some ([[5; 1; 1]], [[2; 4; 6]], [24], [11]) /\
  read_bolshoi int_ops LE BE 1000 (repeat 9) 8 (bolshoi_file BE (repeat 32 45) x_h1 (x_h2 1) (repeat 0 6) [[x_part 3 9 5 10; x_part 6 2 2 11]; [x_part 5 3 4 12]]) =
    Some ([[2; 8; 4]; [4; 2; 3]], [[2; 4; 6]; [2; 4; 6]], [24; 24], [10; 12]).
Proof.
  split; [|split; vm_compute; reflexivity]. constructor; try reflexivity; try lia.
  - unfold x_h1, bh1_layout. cbn [repeat]. repeat (constructor; [unfold word; cbn; lia|]). constructor.
  - unfold x_h2, bh2_layout. cbn [repeat]. repeat (constructor; [unfold word; cbn; lia|]). constructor.
  - cbn [repeat]. repeat (constructor; [unfold word; cbn; lia|]). constructor.
  - repeat constructor; cbn; unfold word, fits; cbn; lia.
Qed.
Example C154_nonvacuous : unrounded int_ops IZR (fun _ => True) 8 2 /\ unrounded int_ops IZR (fun _ => True) 8 1 /\
  Forall (fun p => inside IZR (fun _ => True) 8 (position_of int_ops x_h1 p)) x_parts.
Proof.
  assert (C : forall a b, (int_ops.(b_lt) a b = true <-> (IZR a < IZR b)%R) /\ (int_ops.(b_le) a b = true <-> (IZR a <= IZR b)%R)).
  { intros a b. cbn. rewrite Z.ltb_lt, Z.leb_le. split; split; intros H; auto using IZR_lt, lt_IZR, IZR_le, le_IZR. }
  split; [|split].
  - constructor; try (intros; apply C); intros i Hi; (split; [exact I|]); assert (i = 0 \/ i = 1) as [-> | ->] by lia; cbn; lra.
  - constructor; try (intros; apply C); intros i Hi; (split; [exact I|]); assert (i = 0) as -> by lia; cbn; lra.
  - unfold x_parts. repeat (apply Forall_cons; [intros i Hi; (do 3 (destruct i as [|i]; [cbn; split; [exact I|lra]|])); lia|]). apply Forall_nil.
Qed.
Example C156_nonvacuous : read_bolshoi int_ops LE BE 1000 (repeat 9) 8 (firstn 300 (bolshoi_file BE (repeat 32%Z 45) x_h1 (x_h2 2) (repeat 0%Z 6)
  [[x_part 3 9 5 10; x_part 6 2 2 11]; [x_part 5 3 4 12]])) = None /\ (300 < length (bolshoi_file BE (repeat 32%Z 45) x_h1 (x_h2 2) (repeat 0%Z 6)
  [[x_part 3 9 5 10; x_part 6 2 2 11]; [x_part 5 3 4 12]]))%nat.
Proof. split; [vm_compute; reflexivity|apply Nat.ltb_lt; vm_compute; reflexivity]. Qed.
