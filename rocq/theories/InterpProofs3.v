(** * TriLinear when the z grid equals the y grid; TriDiag. *)
From Coq Require Import Lra Psatz.
From Verif Require Import GoBase RealBase InterpModel InterpSpec InterpProofs InterpProofs2.
Local Open Scope R_scope.
Local Open Scope list_scope.

Definition trilerp (v111 v112 v121 v122 v211 v212 v221 v222 t u w : R) : R :=
  ((v111 * (1 - t) + v211 * t) * (1 - u) + (v121 * (1 - t) + v221 * t) * u) * (1 - w)
  + ((v112 * (1 - t) + v212 * t) * (1 - u) + (v122 * (1 - t) + v222 * t) * u) * w.

Lemma TriLinearEval_form sx sy sz xs ys vals x y z : grid_ok sx xs -> grid_ok sy ys ->
  List.length vals = (List.length xs * List.length ys * List.length ys)%nat ->
  within xs x -> within ys y -> within ys z ->
  exists i j k a b c d e f v111 v112 v121 v122 v211 v212 v221 v222,
    (nth_error xs i = Some a /\ nth_error xs (S i) = Some b /\ a <= x <= b) /\
    (nth_error ys j = Some c /\ nth_error ys (S j) = Some d /\ c <= y <= d) /\
    (nth_error ys k = Some e /\ nth_error ys (S k) = Some f /\ e <= z <= f) /\
    (let nx := List.length xs in let ny := List.length ys in
     nth_error vals (i + nx * j + nx * ny * k) = Some v111 /\ nth_error vals (i + nx * j + nx * ny * S k) = Some v112 /\
     nth_error vals (i + nx * S j + nx * ny * k) = Some v121 /\ nth_error vals (i + nx * S j + nx * ny * S k) = Some v122 /\
     nth_error vals (S i + nx * j + nx * ny * k) = Some v211 /\ nth_error vals (S i + nx * j + nx * ny * S k) = Some v212 /\
     nth_error vals (S i + nx * S j + nx * ny * k) = Some v221 /\ nth_error vals (S i + nx * S j + nx * ny * S k) = Some v222) /\
    TriLinearEval {| t_xs := sx; t_ys := sy; t_zs := sz; t_vals := vals; t_nx := Z.of_nat (List.length xs); t_ny := Z.of_nat (List.length ys) |} x y z
      = Some (trilerp v111 v112 v121 v122 v211 v212 v221 v222 (frac x a b) (frac y c d) (frac z e f)).
Proof.
  intros Gx Gy HL Hx Hy Hz. destruct (go_in _ _ Gx x Hx) as (i & a & b & Hi & Ha & Hb & Hr).
  destruct (go_in _ _ Gy y Hy) as (j & c & d & Hj & Hc & Hd & Hs).
  destruct (go_in _ _ Gy z Hz) as (k & e & f & Hk & He & Hf & Ht).
  assert (Hl : (S i < List.length xs)%nat) by (apply nth_error_Some; congruence).
  assert (Hm : (S j < List.length ys)%nat) by (apply nth_error_Some; congruence).
  assert (Ho : (S k < List.length ys)%nat) by (apply nth_error_Some; congruence).
  set (nx := List.length xs) in *. set (ny := List.length ys) in *.
  destruct (nth_ex vals (i + nx * j + nx * ny * k)) as [v111 E111]; [rewrite HL; apply idx3; lia|].
  destruct (nth_ex vals (i + nx * j + nx * ny * S k)) as [v112 E112]; [rewrite HL; apply idx3; lia|].
  destruct (nth_ex vals (i + nx * S j + nx * ny * k)) as [v121 E121]; [rewrite HL; apply idx3; lia|].
  destruct (nth_ex vals (i + nx * S j + nx * ny * S k)) as [v122 E122]; [rewrite HL; apply idx3; lia|].
  destruct (nth_ex vals (S i + nx * j + nx * ny * k)) as [v211 E211]; [rewrite HL; apply idx3; lia|].
  destruct (nth_ex vals (S i + nx * j + nx * ny * S k)) as [v212 E212]; [rewrite HL; apply idx3; lia|].
  destruct (nth_ex vals (S i + nx * S j + nx * ny * k)) as [v221 E221]; [rewrite HL; apply idx3; lia|].
  destruct (nth_ex vals (S i + nx * S j + nx * ny * S k)) as [v222 E222]; [rewrite HL; apply idx3; lia|].
  exists i, j, k, a, b, c, d, e, f, v111, v112, v121, v122, v211, v212, v221, v222.
  split; [tauto|]. split; [tauto|]. split; [tauto|]. split; [cbv zeta; tauto|].
  unfold TriLinearEval. cbn [t_xs t_ys t_vals t_nx t_ny]. rewrite Hi, Hj, Hk. cbn [bindo]. cbv zeta.
  assert (Q : forall (A : list R) q m v, nth_error A m = Some v -> q = Z.of_nat m -> at_ A q = Some v) by (intros; subst q; rewrite at_nat; assumption).
  rewrite (Q vals _ _ _ E111) by lia. cbn [bindo]. rewrite (Q vals _ _ _ E112) by lia. cbn [bindo].
  rewrite (Q vals _ _ _ E121) by lia. cbn [bindo]. rewrite (Q vals _ _ _ E122) by lia. cbn [bindo].
  rewrite (Q vals _ _ _ E211) by lia. cbn [bindo]. rewrite (Q vals _ _ _ E212) by lia. cbn [bindo].
  rewrite (Q vals _ _ _ E221) by lia. cbn [bindo]. rewrite (Q vals _ _ _ E222) by lia. cbn [bindo].
  replace (Z.of_nat i + 1)%Z with (Z.of_nat (S i)) by lia. replace (Z.of_nat j + 1)%Z with (Z.of_nat (S j)) by lia.
  replace (Z.of_nat k + 1)%Z with (Z.of_nat (S k)) by lia.
  rewrite (go_val _ _ Gx _ _ Ha), (go_val _ _ Gx _ _ Hb), (go_val _ _ Gy _ _ Hc), (go_val _ _ Gy _ _ Hd), (go_val _ _ Gy _ _ He), (go_val _ _ Gy _ _ Hf).
  cbn [bindo]. reflexivity.
Qed.

Theorem TriLinear_interpolates sx sy sz xs ys vals : grid_ok sx xs -> grid_ok sy ys ->
  List.length vals = (List.length xs * List.length ys * List.length ys)%nat ->
  interpolates3 xs ys ys vals (TriLinearEval {| t_xs := sx; t_ys := sy; t_zs := sz; t_vals := vals; t_nx := Z.of_nat (List.length xs); t_ny := Z.of_nat (List.length ys) |}).
Proof.
  intros Gx Gy HL. pose proof (go_inc _ _ Gx) as Hix. pose proof (go_inc _ _ Gy) as Hiy. split.
  - intros p q r g h l v Hg Hh Hl' Hv.
    destruct (TriLinearEval_form sx sy sz xs ys vals g h l Gx Gy HL (node_within _ _ _ Hix Hg) (node_within _ _ _ Hiy Hh) (node_within _ _ _ Hiy Hl'))
      as (i & j & k & a & b & c & d & e & f & v111 & v112 & v121 & v122 & v211 & v212 & v221 & v222 &
          (Ha & Hb & Hr) & (Hc & Hd & Hs) & (He & Hf & Ht) & HV & E).
    cbv zeta in HV. destruct HV as (E111 & E112 & E121 & E122 & E211 & E212 & E221 & E222).
    rewrite E. f_equal. pose proof (bracket_lt _ _ _ _ Hix Ha Hb) as Hab. pose proof (bracket_lt _ _ _ _ Hiy Hc Hd) as Hcd.
    pose proof (bracket_lt _ _ _ _ Hiy He Hf) as Hef.
    destruct (bracket_node xs p i a b g Hix Hg Ha Hb Hr) as [[-> ->]|[-> ->]];
    destruct (bracket_node ys q j c d h Hiy Hh Hc Hd Hs) as [[-> ->]|[-> ->]];
    destruct (bracket_node ys r k e f l Hiy Hl' He Hf Ht) as [[-> ->]|[-> ->]];
    rewrite ?frac_lo, ?frac_hi by assumption; unfold trilerp;
    first [rewrite E111 in Hv|rewrite E112 in Hv|rewrite E121 in Hv|rewrite E122 in Hv
          |rewrite E211 in Hv|rewrite E212 in Hv|rewrite E221 in Hv|rewrite E222 in Hv]; injection Hv as <-; ring.
  - intros p qx qy qz rxy rxz ryz s Hv x y z Hx Hy Hz.
    destruct (TriLinearEval_form sx sy sz xs ys vals x y z Gx Gy HL Hx Hy Hz)
      as (i & j & k & a & b & c & d & e & f & v111 & v112 & v121 & v122 & v211 & v212 & v221 & v222 &
          (Ha & Hb & Hr) & (Hc & Hd & Hs) & (He & Hf & Ht) & HV & E).
    cbv zeta in HV. destruct HV as (E111 & E112 & E121 & E122 & E211 & E212 & E221 & E222).
    rewrite E. f_equal. pose proof (bracket_lt _ _ _ _ Hix Ha Hb) as Hab. pose proof (bracket_lt _ _ _ _ Hiy Hc Hd) as Hcd.
    pose proof (bracket_lt _ _ _ _ Hiy He Hf) as Hef.
    rewrite (Hv _ _ _ _ _ _ _ Ha Hc He E111), (Hv _ _ _ _ _ _ _ Ha Hc Hf E112), (Hv _ _ _ _ _ _ _ Ha Hd He E121), (Hv _ _ _ _ _ _ _ Ha Hd Hf E122).
    rewrite (Hv _ _ _ _ _ _ _ Hb Hc He E211), (Hv _ _ _ _ _ _ _ Hb Hc Hf E212), (Hv _ _ _ _ _ _ _ Hb Hd He E221), (Hv _ _ _ _ _ _ _ Hb Hd Hf E222).
    pose proof (frac_eq x a b Hab) as Ex. pose proof (frac_eq y c d Hcd) as Ey. pose proof (frac_eq z e f Hef) as Ez.
    set (t := frac x a b) in *. set (u := frac y c d) in *. set (w := frac z e f) in *. clearbody t u w. subst x y z. unfold trilerp. ring.
  - intros x y z Hx Hy Hz.
    destruct (TriLinearEval_form sx sy sz xs ys vals x y z Gx Gy HL Hx Hy Hz)
      as (i & j & k & a & b & c & d & e & f & v111 & v112 & v121 & v122 & v211 & v212 & v221 & v222 &
          (Ha & Hb & Hr) & (Hc & Hd & Hs) & (He & Hf & Ht) & HV & E).
    cbv zeta in HV. destruct HV as (E111 & E112 & E121 & E122 & E211 & E212 & E221 & E222).
    exists i, j, k. eexists. split; [exists a, b; auto|]. split; [exists c, d; auto|]. split; [exists e, f; auto|]. split; [exact E|].
    intros m M Hm. pose proof (bracket_lt _ _ _ _ Hix Ha Hb) as Hab. pose proof (bracket_lt _ _ _ _ Hiy Hc Hd) as Hcd.
    pose proof (bracket_lt _ _ _ _ Hiy He Hf) as Hef.
    unfold trilerp. apply lerp_bound; [apply frac_range; auto| |];
      (apply lerp_bound; [apply frac_range; auto| |]); (apply lerp_bound; [apply frac_range; auto| |]).
    + apply (Hm 0 0 0)%nat; [lia|lia|lia|]. rewrite !Nat.add_0_r. exact E111.
    + apply (Hm 1 0 0)%nat; [lia|lia|lia|]. rewrite !Nat.add_0_r, Nat.add_1_r. exact E211.
    + apply (Hm 0 1 0)%nat; [lia|lia|lia|]. rewrite !Nat.add_0_r, Nat.add_1_r. exact E121.
    + apply (Hm 1 1 0)%nat; [lia|lia|lia|]. rewrite !Nat.add_0_r, !Nat.add_1_r. exact E221.
    + apply (Hm 0 0 1)%nat; [lia|lia|lia|]. rewrite !Nat.add_0_r, Nat.add_1_r. exact E112.
    + apply (Hm 1 0 1)%nat; [lia|lia|lia|]. rewrite !Nat.add_0_r, !Nat.add_1_r. exact E212.
    + apply (Hm 0 1 1)%nat; [lia|lia|lia|]. rewrite !Nat.add_0_r, !Nat.add_1_r. exact E122.
    + apply (Hm 1 1 1)%nat; [lia|lia|lia|]. rewrite !Nat.add_1_r. exact E222.
  - intros x y z Hxy. unfold TriLinearEval. cbn [t_xs t_ys].
    destruct (search sx x) eqn:Ex; [|reflexivity]. cbn [bindo]. destruct (search sy y) eqn:Ey; [|reflexivity]. cbn [bindo].
    destruct Hxy as [H|[H|H]].
    + rewrite (go_out _ _ Gx x H) in Ex. discriminate.
    + rewrite (go_out _ _ Gy y H) in Ey. discriminate.
    + rewrite (go_out _ _ Gy z H). reflexivity.
Qed.

(** ** TriDiag *)

(** Row i of the system: a_i u_{i-1} + b_i u_i + c_i u_{i+1} = r_i, with u outside the vector absent. *)
Definition getu (us : list R) (i : nat) : R := nth i us 0.
Definition rowEq (as_ bs cs rs us : list R) (i : nat) : Prop :=
  (match i with O => 0 | S k => nth i as_ 0 * nth k us 0 end) + nth i bs 0 * nth i us 0
  + (if Nat.ltb (S i) (List.length us) then nth i cs 0 * nth (S i) us 0 else 0) = nth i rs 0.

Lemma triBack_length o l : List.length (triBack o l) = S (List.length l).
Proof. revert o. induction l as [|[t o'] l IH]; intros o; cbn; [reflexivity|]. rewrite IH. reflexivity. Qed.
Lemma triFwd_length rows : forall beta prev l, triFwd rows beta prev = Some l -> List.length l = List.length rows.
Proof.
  induction rows as [|[[[a b] c] r] rows IH]; intros beta prev l; cbn.
  - intros [= <-]. reflexivity.
  - destruct (Reqb (b - a * (c / beta)) 0); [discriminate|].
    destruct (triFwd rows (b - a * (c / beta)) ((r - a * prev) / (b - a * (c / beta)))) eqn:E; [|discriminate].
    cbn. intros [= <-]. cbn. rewrite (IH _ _ _ E). reflexivity.
Qed.

(** The equations left after the forward sweep down to a row with pivot beta and eliminated right hand side beta*o. *)
Fixpoint sysTail (rows : list (R * R * R * R)) (u : R) (us : list R) : Prop :=
  match rows, us with
  | [], [] => True
  | (a, b, c, r) :: rows', u' :: us' =>
      a * u + b * u' + match rows', us' with (_, _, c', _) :: _, u'' :: _ => c' * u'' | _, _ => 0 end = r /\ sysTail rows' u' us'
  | _, _ => False
  end.

Lemma triFwd_solves rows : forall beta o l, beta <> 0 -> triFwd rows beta o = Some l ->
  exists u us, triBack o l = u :: us /\
    beta * u + match rows, us with (_, _, c, _) :: _, u' :: _ => c * u' | _, _ => 0 end = beta * o /\ sysTail rows u us.
Proof.
  induction rows as [|[[[a b] c] r] rows IH]; intros beta o l Hb; cbn [triFwd].
  - intros [= <-]. cbn. exists o, []. repeat split. ring.
  - destruct (Reqb (b - a * (c / beta)) 0) eqn:E0; [discriminate|]. apply Reqb_false in E0.
    destruct (triFwd rows (b - a * (c / beta)) ((r - a * o) / (b - a * (c / beta)))) eqn:E; [|discriminate].
    cbn [option_map]. intros [= <-]. destruct (IH _ _ _ E0 E) as (u & us & H1 & H2 & H3).
    cbn [triBack]. rewrite H1. cbn [hd]. exists (o - c / beta * u), (u :: us). split; [reflexivity|]. split.
    + field. exact Hb.
    + cbn [sysTail]. split; [|exact H3].
      set (m := match rows with [] => 0 | (_, _, c', _) :: _ => match us with [] => 0 | u' :: _ => c' * u' end end) in *.
      assert (H2' : (b - a * (c / beta)) * u + m = r - a * o).
      { rewrite H2. field. split; [exact Hb|]. intro HH. apply E0. field_simplify_eq; [|exact Hb]. lra. }
      clearbody m. replace m with (r - a * o - (b - a * (c / beta)) * u) by lra. field. exact Hb.
Qed.
