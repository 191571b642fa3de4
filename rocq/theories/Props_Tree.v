(** * C27 and C75: merger-tree histories. *)
From Coq Require Import ZArith List Bool Lia.
From Verif Require Import TreeModel TreeProofs.
Import List ListNotations.
Local Open Scope Z_scope.

(** ** C27 *)

(** All roots are in some file: one history per root, in order; it is the main line through the root in the first file that has it, and its
    snapshots strictly increase. The calls end (any number of rounds not below the number of lists of a file gives this result). *)
Theorem C27_histories : forall files roots offset fuel, Forall tree_ok files -> Forall (fun t => (length t <= fuel)%nat) files ->
  Forall (fun id => exists t, In t files /\ in_tree t id) roots ->
  exists rows, halo_histories fuel files roots offset = Some (inr rows) /\
    Forall2 (fun id r => exists before t after root hs, files = before ++ t :: after /\ Forall (fun f => ~ in_tree f id) before /\
      root_of t id root /\ main_line t root hs /\
      r = map (fun h => (th_id h, Z.of_nat (length t) - th_index h + offset)) hs /\ strictly_up (map snd r)) roots rows.
Proof.
  intros files roots offset fuel W F Hin. unfold halo_histories. destruct roots as [|id0 roots0]; [exists []; split; [reflexivity|constructor]|].
  set (roots := id0 :: roots0) in *.
  destruct (search_files_spec fuel roots files [] (map (fun _ => None) roots) 0 W F) as (slots & -> & Hs).
  - clear. induction roots; cbn [map]; constructor; [constructor|assumption].
  - clear. induction roots; [reflexivity|]. exact IHroots.
  - destruct (finish_spec offset files roots slots Hs) as (Hy & _). destruct (Hy Hin) as (hists & -> & Hh). eexists. split; [reflexivity|].
    clear - Hh W. induction Hh as [|id h roots hists (b & t & a & -> & Hb & root & hs & Hr & Hm & ->) Hh IH]; cbn [map]; constructor; [|exact IH].
    exists b, t, a, root, hs. split; [reflexivity|]. split; [exact Hb|]. split; [exact Hr|]. split; [exact Hm|].
    assert (E : map (shift offset) (map (row t) hs) = map (fun h => (th_id h, Z.of_nat (length t) - th_index h + offset)) hs) by (rewrite map_map; reflexivity).
    rewrite E. split; [reflexivity|].
    assert (Wt : tree_ok t) by (apply Forall_app in W; destruct W as (_ & W); inversion_clear W; assumption).
    destruct Hr as (_ & i & Hi & _). pose proof (main_line_increasing t root hs Wt (ex_intro _ i Hi) Hm) as Hup. rewrite map_map in *. cbn [snd row] in *.
    clear - Hup. induction hs as [|h hs IH]; cbn [map strictly_up] in *; [exact I|]. destruct Hup as (H1 & H2). split; [|now apply IH].
    rewrite Forall_map in *. eapply Forall_impl; [|exact H1]. cbv beta. intros; lia.
Qed.

(** A root that no file has is reported, the first such root if there are several. *)
Theorem C27_missing : forall files before id after offset fuel, Forall tree_ok files -> Forall (fun t => (length t <= fuel)%nat) files ->
  Forall (fun r => exists t, In t files /\ in_tree t r) before -> (forall t, In t files -> ~ in_tree t id) ->
  halo_histories fuel files (before ++ id :: after) offset = Some (inl id).
Proof.
  intros files before id after offset fuel W F Hb Hn. unfold halo_histories. set (roots := before ++ id :: after).
  assert (Hne : exists r rs, roots = r :: rs) by (subst roots; destruct before; cbn; eauto). destruct Hne as (r & rs & Er). rewrite Er, <- Er.
  destruct (search_files_spec fuel roots files [] (map (fun _ => None) roots) 0 W F) as (slots & -> & Hs).
  - clear. induction roots; cbn [map]; constructor; [constructor|assumption].
  - clear. induction roots; [reflexivity|]. exact IHroots.
  - destruct (finish_spec offset files roots slots Hs) as (_ & He). f_equal. apply (He before id after); auto.
Qed.

(** One entry per snapshot: if all pointers lead to the neighbouring list, the snapshots of a history are consecutive. *)
Fixpoint consecutive (l : list Z) : Prop := match l with a :: ((b :: _) as l') => b = a + 1 /\ consecutive l' | _ => True end.
Definition adjacent (t : HTree) : Prop := forall i h, in_list t i h ->
  (forall j k, th_desc h = Some (j, k) -> i = S j) /\ (forall j k, th_prog h = Some (j, k) -> j = S i).

Lemma consecutive_app l1 x l2 : consecutive (l1 ++ [x]) -> consecutive (x :: l2) -> consecutive (l1 ++ x :: l2).
Proof.
  induction l1 as [|a l1 IH]; cbn [app]; [auto|]. intros H1 H2. destruct l1 as [|b l1]; cbn [app] in *.
  - destruct H1 as (-> & _). split; [reflexivity|exact H2].
  - destruct H1 as (H1 & H3). split; [exact H1|]. apply IH; assumption.
Qed.

Theorem C27_one_per_snapshot : forall t root hs offset, tree_ok t -> adjacent t -> (exists i, in_list t i root) -> main_line t root hs ->
  consecutive (map (fun h => Z.of_nat (length t) - th_index h + offset) hs).
Proof.
  intros t root hs offset W A (i & Hi) (ps & ds & Hp & Hd & ->). set (f := fun h => Z.of_nat (length t) - th_index h + offset).
  assert (Up : forall ds h i, in_list t i h -> line_up t h ds -> consecutive (f h :: map f ds)).
  { induction ds0 as [|d ds0 IH]; intros h j Hj Hl; [exact I|]. destruct Hl as (Hdd & Hl). unfold desc, follow in Hdd. destruct (th_desc h) as [[a b]|] eqn:E; [|discriminate].
    destruct (A j h Hj) as (A1 & _). specialize (A1 a b E). apply place_in in Hdd. cbn [fst] in Hdd. cbn [map]. split; [|exact (IH d a Hdd Hl)].
    unfold f. destruct (W j h Hj) as (-> & _). destruct (W a d Hdd) as (-> & _). lia. }
  assert (Down : forall ds h i, in_list t i h -> line_down t h ds -> consecutive (map f (rev ds) ++ [f h])).
  { induction ds0 as [|d ds0 IH]; intros h j Hj Hl; [exact I|]. destruct Hl as (Hdd & Hl). unfold prog, follow in Hdd. destruct (th_prog h) as [[a b]|] eqn:E; [|discriminate].
    destruct (A j h Hj) as (_ & A1). specialize (A1 a b E). apply place_in in Hdd. cbn [fst] in Hdd. cbn [rev]. rewrite map_app, <- app_assoc. cbn [map app].
    apply consecutive_app; [exact (IH d a Hdd Hl)|]. split; [|exact I].
    unfold f. destruct (W j h Hj) as (-> & _). destruct (W a d Hdd) as (-> & _). lia. }
  rewrite map_app. cbn [app map]. apply consecutive_app; [exact (Down ps root i Hi Hp)|exact (Up ds root i Hi Hd)].
Qed.

(** ** C75: snapshot numbers *)
(** Halo of list i of a file with n lists: snapshot n - i + offset. It is the right one, last - i, for the files with last - offset lists. *)
Theorem C75_snapshots_partial : forall t id offset last fuel, tree_ok t -> (length t <= fuel)%nat -> in_tree t id -> Z.of_nat (length t) + offset = last ->
  exists rows, halo_histories fuel [t] [id] offset = Some (inr [rows]) /\ (length rows >= 1)%nat /\
    Forall (fun r => exists i h, in_list t i h /\ fst r = th_id h /\ snd r = last - Z.of_nat i) rows.
Proof.
  intros t id offset last fuel W F Hin Hl.
  destruct (C27_histories [t] [id] offset fuel) as (rows & E & H); [constructor; [assumption|constructor]|constructor; [assumption|constructor]|constructor; [exists t; split; [left; reflexivity|assumption]|constructor]|].
  inversion H as [|? r ? rs Hr Hrs]; subst. inversion Hrs; subst. destruct Hr as (b & t' & a & root' & hs' & Ef & _ & (Hid & i & Hi & _) & Hm & -> & _).
  assert (t' = t /\ b = [] /\ a = []) by (destruct b as [|x [|y b]]; cbn in Ef; [|discriminate|discriminate]; injection Ef; auto). destruct H0 as (-> & _ & _).
  eexists. split; [exact E|]. destruct Hm as (ps & ds & Hp & Hd & ->).
  destruct (line_down_decreasing t W ps i root' Hi Hp) as (_ & _ & P3). destruct (line_up_increasing t W ds i root' Hi Hd) as (_ & _ & D3).
  split; [rewrite map_length, !app_length; cbn [length]; lia|].
  assert (Hall : Forall (fun h => exists j, in_list t j h) (rev ps ++ [root'] ++ ds)).
  { apply Forall_app. split; [now apply Forall_rev|]. constructor; [eauto|exact D3]. }
  rewrite Forall_map. eapply Forall_impl; [|exact Hall]. intros h (j & Hj). exists j, h. split; [exact Hj|]. split; [reflexivity|]. cbn [snd]. destruct (W j h Hj) as (-> & _). lia.
Qed.

(** Two files whose first halos appear at different snapshots give different snapshot numbers to halos of their (common) last list, whatever the offset. *)
Theorem C75_short_file_refuted : forall a b offset fuel, (1 < fuel)%nat -> a <> b ->
  let h x := mkTH x 0 None None in let old := mkTH 99 1 None None in
  let full := [[h a]; [old]] in let short := [[h b]] in
  tree_ok full /\ tree_ok short /\ (a <> 99 -> b <> 99 ->
  halo_histories fuel [full; short] [a; b] offset = Some (inr [[(a, 2 + offset)]; [(b, 1 + offset)]])).
Proof.
  intros a b offset fuel Hf Hab. cbv zeta. split; [|split].
  - intros i h0 (l & Hl & Hin). destruct i as [|[|i]]; cbn in Hl; [| |destruct i; discriminate]; injection Hl as <-; destruct Hin as [<-|[]]; cbn; repeat split; try discriminate.
  - intros i h0 (l & Hl & Hin). destruct i as [|i]; cbn in Hl; [|destruct i; discriminate]. injection Hl as <-. destruct Hin as [<-|[]]; cbn; repeat split; discriminate.
  - intros Ha Hb. destruct fuel as [|fuel]; [lia|].
    assert (Eab : (a =? b) = false) by now apply Z.eqb_neq. assert (E9 : (99 =? b) = false) by (apply Z.eqb_neq; congruence).
    unfold halo_histories. cbn [map search_files fill_slots]. unfold find_history, find_halo. cbn [find_halo_from lookup_in find th_id length]. unfold lookup_in. cbn [find th_id].
    rewrite Z.eqb_refl, Eab, E9. cbn [chase desc prog follow th_desc th_prog]. cbn [Nat.add Nat.eqb fill_slots search_files].
    unfold find_history, find_halo. cbn [find_halo_from length]. unfold lookup_in. cbn [find th_id]. rewrite Z.eqb_refl. reflexivity.
Qed.

(** A tree with a history over three snapshots. *)
Example C27_nonvacuous :
  let t := [[mkTH 30 0 None (Some (1, 0))]; [mkTH 20 1 (Some (0, 0)) (Some (2, 1))]; [mkTH 11 2 None None; mkTH 10 2 (Some (1, 0)) None]]%nat in
  tree_ok t /\ adjacent t /\ in_tree t 20 /\ halo_histories 3 [t] [20; 30] 5 = Some (inr [[(10, 6); (20, 7); (30, 8)]; [(10, 6); (20, 7); (30, 8)]]) /\ halo_histories 3 [t] [20; 77; 30] 5 = Some (inl 77).
Proof.
  cbv zeta. split; [|split; [|split; [|split; reflexivity]]].
  - intros i h (l & Hl & Hin). destruct i as [|[|[|i]]]; cbn in Hl; [| | |destruct i; discriminate]; injection Hl as <-; cbn in Hin; repeat (destruct Hin as [<-|Hin]; [cbn; repeat split; intros ? ? E; try discriminate; injection E as <- <-; lia|]); destruct Hin.
  - intros i h (l & Hl & Hin). destruct i as [|[|[|i]]]; cbn in Hl; [| | |destruct i; discriminate]; injection Hl as <-; cbn in Hin; repeat (destruct Hin as [<-|Hin]; [cbn; repeat split; intros ? ? E; try discriminate; injection E as <- <-; lia|]); destruct Hin.
  - exists 1%nat. eexists. split; [eexists; split; [reflexivity|left; reflexivity]|reflexivity].
Qed.

Example C75_nonvacuous : halo_histories 3 [[[mkTH 1 0 None None]; [mkTH 99 1 None None]]; [[mkTH 2 0 None None]]] [1; 2] 0 = Some (inr [[(1, 2)]; [(2, 1)]]).
Proof. reflexivity. Qed.

Print Assumptions C27_histories.
Print Assumptions C27_missing.
Print Assumptions C27_one_per_snapshot.
Print Assumptions C75_snapshots_partial.
Print Assumptions C75_short_file_refuted.
