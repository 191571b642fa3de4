(** * Proofs about slices and Platonic solids. *)
From Coq Require Import Reals Lra Psatz List Bool ZArith Lia Permutation.
From Verif Require Import RealBase GeomSpec GeomProofs GeomProofs2.
Import List ListNotations.
Local Open Scope R_scope.

(** ** Slices *)
Lemma crosses_neq t i j z : crosses_z t i j z = true -> (cz (vertex t i) < z <= cz (vertex t j)) \/ (cz (vertex t j) < z <= cz (vertex t i)).
Proof.
  unfold crosses_z. unfold Rltb. destruct (Rlt_dec (cz (vertex t i)) z), (Rlt_dec (cz (vertex t j)) z); cbn; intros; try discriminate; lra.
Qed.
Definition is_low (t : tetra) (z : R) (i : nat) : bool := Rltb (cz (vertex t i)) z.
Lemma slice_length t z : let n := length (slice_points t (plucker_tetra t) z) in
  let low := length (filter (is_low t z) [0; 1; 2; 3]%nat) in
  n = match low with 1%nat | 3%nat => 3%nat | 2%nat => 4%nat | _ => 0%nat end.
Proof.
  cbv zeta. unfold slice_points, crosses_z. cbn [seq flat_map nth edge_starts edge_ends filter]. fold (is_low t z 0) (is_low t z 1) (is_low t z 2) (is_low t z 3).
  change (Rltb (cz (vertex t 0)) z) with (is_low t z 0). change (Rltb (cz (vertex t 1)) z) with (is_low t z 1).
  change (Rltb (cz (vertex t 2)) z) with (is_low t z 2). change (Rltb (cz (vertex t 3)) z) with (is_low t z 3).
  destruct (is_low t z 0), (is_low t z 1), (is_low t z 2), (is_low t z 3); reflexivity.
Qed.
Lemma edge_dir t i : (i < 6)%nat -> p_u (edge (plucker_tetra t) i) = sub3 (vertex t (nth i edge_ends 0%nat)) (vertex t (nth i edge_starts 0%nat)).
Proof. intros H. do 6 (destruct i as [|i]; [reflexivity|]). lia. Qed.
Lemma edge_in_tetra t i j u : (i < 4)%nat -> (j < 4)%nat -> 0 <= u <= 1 -> in_tetra t (along (vertex t i) (sub3 (vertex t j) (vertex t i)) u).
Proof.
  intros Hi Hj Hu. assert (A : in_tetra t (along (vertex t i) (sub3 (vertex t j) (vertex t i)) 0)).
  { replace (along _ _ 0) with (vertex t i); [apply vertices_in|]. unfold along. destruct (vertex t i) as [p0 p1 p2]. cbn [cx cy cz]. f_equal; ring. }
  assert (B : in_tetra t (along (vertex t i) (sub3 (vertex t j) (vertex t i)) 1)).
  { replace (along _ _ 1) with (vertex t j); [apply vertices_in|]. unfold along, sub3. destruct (vertex t j) as [p0 p1 p2]. cbn [cx cy cz]. f_equal; ring. }
  revert A B. generalize (vertex t i) (sub3 (vertex t j) (vertex t i)). intros P L (a & b & c & d & Ha & Hb & Hc & Hd & S1 & M1) (a' & b' & c' & d' & Ha' & Hb' & Hc' & Hd' & S2 & M2).
  exists ((1 - u) * a + u * a'), ((1 - u) * b + u * b'), ((1 - u) * c + u * c'), ((1 - u) * d + u * d').
  repeat split; try nra. unfold along, mix3 in *. injection M1 as X1 Y1 Z1. injection M2 as X2 Y2 Z2. f_equal.
  - transitivity ((1 - u) * (cx P + 0 * cx L) + u * (cx P + 1 * cx L)); [ring|]. rewrite X1, X2. ring.
  - transitivity ((1 - u) * (cy P + 0 * cy L) + u * (cy P + 1 * cy L)); [ring|]. rewrite Y1, Y2. ring.
  - transitivity ((1 - u) * (cz P + 0 * cz L) + u * (cz P + 1 * cz L)); [ring|]. rewrite Z1, Z2. ring.
Qed.
Lemma slice_in_tetra t z x y i : In (x, y, i) (slice_points t (plucker_tetra t) z) -> in_tetra t (V3 x y z).
Proof.
  unfold slice_points. rewrite in_flat_map. intros (k & Hk & K). apply in_seq in Hk. set (s := nth k edge_starts 0%nat) in *. set (e := nth k edge_ends 0%nat) in *.
  destruct (crosses_z t s e z) eqn:C; [|destruct K]. destruct K as [K|[]]. injection K as Kx Ki. apply crosses_neq in C.
  rewrite edge_dir in Kx by lia. fold s e in Kx. unfold intersect_z in Kx. cbv zeta in Kx. unfold Reqb in Kx. cbn [sub3 cz cx cy] in Kx.
  destruct (Req_EM_T (cz (vertex t e) - cz (vertex t s)) 0) as [Z|Z]; [lra|]. injection Kx as <- <-.
  set (u := (z - cz (vertex t s)) / (cz (vertex t e) - cz (vertex t s))).
  assert (U : u * (cz (vertex t e) - cz (vertex t s)) = z - cz (vertex t s)) by (unfold u; field; lra).
  assert (H : 0 <= u <= 1) by (clearbody u; destruct C; split; nra).
  replace (V3 _ _ z) with (along (vertex t s) (sub3 (vertex t e) (vertex t s)) u).
  - apply edge_in_tetra; auto; [unfold s|unfold e]; do 6 (destruct k as [|k]; [cbn; lia|]); lia.
  - unfold along, sub3. cbn [cx cy cz]. f_equal; try ring. lra.
Qed.

(** The corners are visited in a cycle along the faces. *)
Lemma slice_edges t z : map snd (slice_points t (plucker_tetra t) z) =
  filter (fun i => crosses_z t (nth i edge_starts 0%nat) (nth i edge_ends 0%nat) z) (seq 0 6).
Proof.
  unfold slice_points. induction (seq 0 6) as [|i l IH]; [reflexivity|]. cbn [flat_map filter]. rewrite map_app, IH. cbv zeta. destruct (crosses_z _ _ _ _); reflexivity.
Qed.
Ltac nodup_nats := cbn [seq]; repeat (apply NoDup_cons; [cbn; lia|]); apply NoDup_nil.
Lemma slice_tour t z : let edges := map snd (slice_points t (plucker_tetra t) z) in let n := length edges in
  exists starts ends, link edges = (map Some starts, map Some ends) /\ Permutation starts (seq 0 n) /\ Permutation ends (seq 0 n) /\
    forall k, (k < n)%nat -> nth k ends n = nth (Nat.modulo (S k) n) starts n /\ common_face (nth (nth k starts n) edges 6%nat) (nth (nth k ends n) edges 6%nat).
Proof.
  cbv zeta. rewrite slice_edges. unfold crosses_z. cbn [seq filter nth edge_starts edge_ends].
  change (Rltb (cz (vertex t 0)) z) with (is_low t z 0). change (Rltb (cz (vertex t 1)) z) with (is_low t z 1).
  change (Rltb (cz (vertex t 2)) z) with (is_low t z 2). change (Rltb (cz (vertex t 3)) z) with (is_low t z 3).
  destruct (is_low t z 0), (is_low t z 1), (is_low t z 2), (is_low t z 3); cbn [Bool.eqb negb length];
    match goal with |- context [link ?e] => let r := eval vm_compute in (link e) in
      match r with (?s, ?f) => let s' := eval vm_compute in (map (fun o => match o with Some j => j | None => 9%nat end) s) in
        let f' := eval vm_compute in (map (fun o => match o with Some j => j | None => 9%nat end) f) in exists s', f' end end;
    (split; [vm_compute; reflexivity|]);
    (split; [apply NoDup_Permutation; [nodup_nats|nodup_nats|intros x; cbn; lia]|]);
    (split; [apply NoDup_Permutation; [nodup_nats|nodup_nats|intros x; cbn; lia]|]);
    intros k Hk;
    cbn [length] in Hk; do 4 (try lia; (destruct k as [|k]; [split; [vm_compute; reflexivity|]; cbn [nth];
      first [exists 0%nat; split; [lia|split; unfold is_end, edge_vertices; cbn; lia]
            |exists 1%nat; split; [lia|split; unfold is_end, edge_vertices; cbn; lia]
            |exists 2%nat; split; [lia|split; unfold is_end, edge_vertices; cbn; lia]
            |exists 3%nat; split; [lia|split; unfold is_end, edge_vertices; cbn; lia]]|])); lia.
Qed.
Lemma slice_on_edge t z x y i : In (x, y, i) (slice_points t (plucker_tetra t) z) ->
  (i < 6)%nat /\ exists u, 0 <= u <= 1 /\ V3 x y z = along (vertex t (fst (edge_vertices i))) (sub3 (vertex t (snd (edge_vertices i))) (vertex t (fst (edge_vertices i)))) u.
Proof.
  unfold slice_points. rewrite in_flat_map. intros (k & Hk & K). apply in_seq in Hk. set (s := nth k edge_starts 0%nat) in *. set (e := nth k edge_ends 0%nat) in *.
  destruct (crosses_z t s e z) eqn:C; [|destruct K]. destruct K as [K|[]]. injection K as Kx Ki. apply crosses_neq in C.
  rewrite edge_dir in Kx by lia. fold s e in Kx. unfold intersect_z in Kx. cbv zeta in Kx. unfold Reqb in Kx. cbn [sub3 cz cx cy] in Kx.
  destruct (Req_EM_T (cz (vertex t e) - cz (vertex t s)) 0) as [Z|Z]; [lra|]. injection Kx as <- <-.
  set (u := (z - cz (vertex t s)) / (cz (vertex t e) - cz (vertex t s))).
  assert (U : u * (cz (vertex t e) - cz (vertex t s)) = z - cz (vertex t s)) by (unfold u; field; lra).
  assert (H : 0 <= u <= 1) by (clearbody u; destruct C; split; nra). subst i. split; [lia|]. exists u. split; [auto|].
  replace (fst (edge_vertices k)) with s by (unfold s; do 6 (destruct k as [|k]; [reflexivity|]); lia).
  replace (snd (edge_vertices k)) with e by (unfold e; do 6 (destruct k as [|k]; [reflexivity|]); lia).
  unfold along, sub3. cbn [cx cy cz]. f_equal; try ring. lra.
Qed.

Lemma rsqr_spec pts lo hi : rsqr_min_max pts = Some (lo, hi) -> let r2 (p : R * R) := fst p * fst p + snd p * snd p in
  (forall p, In p pts -> lo <= r2 p <= hi) /\ (exists p, In p pts /\ r2 p = lo) /\ (exists p, In p pts /\ r2 p = hi).
Proof.
  intros K r2. destruct pts as [|p rest]; [discriminate|]. cbn [rsqr_min_max] in K. injection K as K.
  change (fold_left (fun (m : R * R) q => if Rltb (snd m) (r2 q) then (fst m, r2 q) else if Rltb (r2 q) (fst m) then (r2 q, snd m) else m) rest (r2 p, r2 p) = (lo, hi)) in K.
  assert (G : forall rest seen a b, (forall q, In q seen -> a <= r2 q <= b) -> (exists q, In q seen /\ r2 q = a) -> (exists q, In q seen /\ r2 q = b) ->
    fold_left (fun (m : R * R) q => if Rltb (snd m) (r2 q) then (fst m, r2 q) else if Rltb (r2 q) (fst m) then (r2 q, snd m) else m) rest (a, b) = (lo, hi) ->
    (forall q, In q (seen ++ rest) -> lo <= r2 q <= hi) /\ (exists q, In q (seen ++ rest) /\ r2 q = lo) /\ (exists q, In q (seen ++ rest) /\ r2 q = hi)).
  { clear. induction rest as [|q rest IH]; intros seen a b H (x & Ix & Ex) (y & Iy & Ey) K.
    - cbn in K. injection K as <- <-. rewrite app_nil_r. split; [exact H|]. split; eauto.
    - cbn [fold_left fst snd] in K. replace (seen ++ q :: rest) with ((seen ++ [q]) ++ rest) by (rewrite <- app_assoc; reflexivity).
      assert (AB : a <= b) by (specialize (H x Ix); lra).
      destruct (Rltb b (r2 q)) eqn:Hb; [apply Rltb_iff in Hb|destruct (Rltb (r2 q) a) eqn:Ha; [apply Rltb_iff in Ha|]];
      try (assert (~ b < r2 q) by (rewrite <- Rltb_iff; congruence)); try (assert (~ r2 q < a) by (rewrite <- Rltb_iff; congruence));
      (eapply IH; [| | |exact K]); try (intros q' I; apply in_app_iff in I; destruct I as [I|[<-|[]]]; [specialize (H q' I); lra|lra]).
      + exists x. split; [apply in_app_iff; auto|auto]. + exists q. split; [apply in_app_iff; cbn; auto|auto].
      + exists q. split; [apply in_app_iff; cbn; auto|auto]. + exists y. split; [apply in_app_iff; auto|auto].
      + exists x. split; [apply in_app_iff; auto|auto]. + exists y. split; [apply in_app_iff; auto|auto]. }
  apply (G rest [p]) in K; auto; try (exists p; cbn; auto; fail). intros q [<-|[]]. lra.
Qed.
