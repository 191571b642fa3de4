(** * Merger-tree histories: specification vocabulary and proofs. *)
From Coq Require Import ZArith List Bool Lia.
From Verif Require Import TreeModel.
Import List ListNotations.
Local Open Scope Z_scope.

(** ** Vocabulary *)
Definition in_list (t : HTree) (i : nat) (h : THalo) : Prop := exists l, nth_error t i = Some l /\ In h l.
Definition in_tree (t : HTree) (id : Z) : Prop := exists i h, in_list t i h /\ th_id h = id.

(** What the library guarantees about a file: a halo's index is that of its list, descendants are in later lists (smaller index), progenitors in
    earlier ones. *)
Definition tree_ok (t : HTree) : Prop := forall i h, in_list t i h ->
  th_index h = Z.of_nat i /\ (forall j k, th_desc h = Some (j, k) -> (j < i)%nat) /\ (forall j k, th_prog h = Some (j, k) -> (i < j)%nat).

(** hs is the whole line of root, from its earliest progenitor to its last descendant. *)
Fixpoint line_up (t : HTree) (h : THalo) (ds : list THalo) : Prop :=
  match ds with [] => desc t h = None | d :: ds' => desc t h = Some d /\ line_up t d ds' end.
Fixpoint line_down (t : HTree) (h : THalo) (ps : list THalo) : Prop :=
  match ps with [] => prog t h = None | p :: ps' => prog t h = Some p /\ line_down t p ps' end.
Definition main_line (t : HTree) (root : THalo) (hs : list THalo) : Prop :=
  exists ps ds, line_down t root ps /\ line_up t root ds /\ hs = rev ps ++ [root] ++ ds.

(** root is the halo called id in the latest list that has one. *)
Definition root_of (t : HTree) (id : Z) (root : THalo) : Prop :=
  th_id root = id /\ exists i, in_list t i root /\ forall j h, in_list t j h -> th_id h = id -> (i <= j)%nat.

(** ** Proofs *)
Lemma place_in t p h : place t p = Some h -> in_list t (fst p) h.
Proof. unfold place. destruct (nth_error t (fst p)) as [l|] eqn:E; [|discriminate]. intros H. exists l. split; [exact E|]. eapply nth_error_In; eauto. Qed.

Lemma desc_in t i h d : tree_ok t -> in_list t i h -> desc t h = Some d -> exists j, (j < i)%nat /\ in_list t j d.
Proof.
  intros W Hi H. unfold desc, follow in H. destruct (th_desc h) as [[j k]|] eqn:E; [|discriminate]. exists j. destruct (W i h Hi) as (_ & Hd & _). split; [eapply Hd; eauto|].
  apply place_in in H. exact H.
Qed.

Lemma prog_in t i h d : tree_ok t -> in_list t i h -> prog t h = Some d -> exists j, (i < j)%nat /\ in_list t j d.
Proof.
  intros W Hi H. unfold prog, follow in H. destruct (th_prog h) as [[j k]|] eqn:E; [|discriminate]. exists j. destruct (W i h Hi) as (_ & _ & Hd). split; [eapply Hd; eauto|].
  apply place_in in H. exact H.
Qed.

Lemma in_list_lt t i h : in_list t i h -> (i < length t)%nat.
Proof. intros (l & H & _). apply nth_error_Some. congruence. Qed.

Definition row (t : HTree) (h : THalo) : Z * Z := (th_id h, Z.of_nat (length t) - th_index h).

Lemma chase_desc t : tree_ok t -> forall i h fuel, in_list t i h -> (i <= fuel)%nat ->
  exists ds, line_up t h ds /\ chase t (desc t) fuel h = Some (map (row t) ds).
Proof.
  intros W i. induction i as [i IH] using lt_wf_ind. intros h fuel Hi Hf.
  destruct (desc t h) as [d|] eqn:E.
  - destruct (desc_in t i h d W Hi E) as (j & Hj & Hd). destruct fuel as [|fuel]; [lia|].
    destruct (IH j Hj d fuel Hd ltac:(lia)) as (ds & Hl & Hc). exists (d :: ds). split; [split; assumption|]. cbn [chase]. rewrite E, Hc. reflexivity.
  - exists []. split; [exact E|]. destruct fuel; cbn [chase]; rewrite E; reflexivity.
Qed.

Lemma chase_prog t : tree_ok t -> forall m i h fuel, (length t - i <= m)%nat -> in_list t i h -> (m <= fuel)%nat ->
  exists ps, line_down t h ps /\ chase t (prog t) fuel h = Some (map (row t) ps).
Proof.
  intros W m. induction m as [|m IH]; intros i h fuel Hm Hi Hf; pose proof (in_list_lt _ _ _ Hi); [lia|].
  destruct (prog t h) as [d|] eqn:E.
  - destruct (prog_in t i h d W Hi E) as (j & Hj & Hd). destruct fuel as [|fuel]; [lia|].
    destruct (IH j d fuel ltac:(lia) Hd ltac:(lia)) as (ds & Hl & Hc). exists (d :: ds). split; [split; assumption|]. cbn [chase]. rewrite E, Hc. reflexivity.
  - exists []. split; [exact E|]. destruct fuel; cbn [chase]; rewrite E; reflexivity.
Qed.

Lemma find_halo_from_spec n id : forall ls i, match find_halo_from n (Z.of_nat i) ls id with
  | Some (h, s) => th_id h = id /\ exists j, in_list ls j h /\ s = n - Z.of_nat (i + j) /\ forall j' h', in_list ls j' h' -> th_id h' = id -> (j <= j')%nat
  | None => forall j h, in_list ls j h -> th_id h <> id end.
Proof.
  induction ls as [|l ls IH]; intros i; cbn [find_halo_from].
  - intros j h (l & H & _). destruct j; discriminate.
  - unfold lookup_in. destruct (find (fun h => th_id h =? id) l) as [h|] eqn:E.
    + apply find_some in E. destruct E as (Hin & He). apply Z.eqb_eq in He. split; [exact He|]. exists O. split; [exists l; auto|]. split; [f_equal; lia|lia].
    + replace (Z.of_nat i + 1) with (Z.of_nat (S i)) by lia. specialize (IH (S i)). pose proof (find_none _ _ E) as Hn.
      assert (H0 : forall h, in_list (l :: ls) 0 h -> th_id h <> id).
      { intros h (l' & H & Hin). injection H as <-. specialize (Hn h Hin). cbv beta in Hn. now apply Z.eqb_neq in Hn. }
      destruct (find_halo_from n (Z.of_nat (S i)) ls id) as [[h s]|].
      * destruct IH as (He & j & Hj & Hs & Hmin). split; [exact He|]. exists (S j). split; [exact Hj|]. split; [rewrite Hs; f_equal; lia|].
        intros [|j'] h' H' Hid; [elim (H0 h' H' Hid)|]. specialize (Hmin j' h' H' Hid). lia.
      * intros [|j] h H; [now apply H0|]. apply (IH j h H).
Qed.

Lemma find_halo_some t id h s : find_halo t id = Some (h, s) -> root_of t id h /\ exists i, in_list t i h /\ s = Z.of_nat (length t) - Z.of_nat i.
Proof.
  unfold find_halo. pose proof (find_halo_from_spec (Z.of_nat (length t)) id t 0) as H. cbn [Z.of_nat] in H. intros E. rewrite E in H.
  destruct H as (He & j & Hj & Hs & Hmin). split; [split; [exact He|]; exists j; auto|]. exists j. split; [exact Hj|]. rewrite Hs. f_equal. 
Qed.

Lemma find_halo_none t id : find_halo t id = None <-> ~ in_tree t id.
Proof.
  unfold find_halo. pose proof (find_halo_from_spec (Z.of_nat (length t)) id t 0) as H. cbn [Z.of_nat] in H.
  destruct (find_halo_from (Z.of_nat (length t)) 0 t id) as [[h s]|].
  - destruct H as (He & j & Hj & _). split; [discriminate|]. intros Hn. elim Hn. exists j, h. auto.
  - split; [|reflexivity]. intros _ (i & h & Hi & He). elim (H i h Hi He).
Qed.

(** The history of a root of a file. *)
Definition history (t : HTree) (id : Z) (rows : list (Z * Z)) : Prop :=
  exists root hs, root_of t id root /\ main_line t root hs /\ rows = map (row t) hs.

Lemma find_history_spec t id fuel : tree_ok t -> (length t <= fuel)%nat ->
  (in_tree t id -> exists rows, find_history fuel t id = Some (Some rows) /\ history t id rows) /\
  (~ in_tree t id -> find_history fuel t id = Some None).
Proof.
  intros W Hf. unfold find_history. destruct (find_halo t id) as [[h s]|] eqn:E.
  - destruct (find_halo_some _ _ _ _ E) as (Hr & i & Hi & Hs). pose proof (in_list_lt _ _ _ Hi).
    split; [|intros Hn; apply find_halo_none in Hn; congruence]. intros _.
    destruct (chase_desc t W i h fuel Hi ltac:(lia)) as (ds & Hl & ->). destruct (chase_prog t W (length t - i) i h fuel ltac:(lia) Hi ltac:(lia)) as (ps & Hp & ->).
    eexists. split; [reflexivity|]. exists h, (rev ps ++ [h] ++ ds). split; [exact Hr|]. split; [exists ps, ds; auto|].
    rewrite !map_app, map_rev. cbn [map app]. f_equal. f_equal. unfold row. destruct Hr as (-> & _). destruct (W i h Hi) as (-> & _). now rewrite Hs.
  - split; [|reflexivity]. intros Hin. apply find_halo_none in E. contradiction.
Qed.

Lemma in_tree_dec t id : in_tree t id \/ ~ in_tree t id.
Proof. destruct (find_halo t id) as [[h s]|] eqn:E; [left|right; now apply find_halo_none]. destruct (find_halo_some _ _ _ _ E) as ((He & i & Hi & _) & _). exists i, h. auto. Qed.

(** first file of a list that has the halo *)
Definition first_history (files : list HTree) (id : Z) (rows : list (Z * Z)) : Prop :=
  exists before t after, files = before ++ t :: after /\ Forall (fun f => ~ in_tree f id) before /\ history t id rows.

Definition slot_ok (seen : list HTree) (id : Z) (s : option (list (Z * Z))) : Prop :=
  match s with None => Forall (fun f => ~ in_tree f id) seen | Some rows => first_history seen id rows end.

Lemma first_history_more seen t id rows : first_history seen id rows -> first_history (seen ++ [t]) id rows.
Proof. intros (b & f & a & -> & Hb & Hh). exists b, f, (a ++ [t]). rewrite <- app_assoc. auto. Qed.

Definition count_some {A} (l : list (option A)) : nat := length (filter (fun o => match o with Some _ => true | None => false end) l).

Lemma fill_slots_spec t fuel seen : tree_ok t -> (length t <= fuel)%nat -> forall roots slots, Forall2 (slot_ok seen) roots slots ->
  exists slots' n, fill_slots fuel t roots slots = Some (slots', n) /\ Forall2 (slot_ok (seen ++ [t])) roots slots' /\ count_some slots' = (count_some slots + n)%nat.
Proof.
  intros W Hf roots slots H. induction H as [|id s roots slots Hs H IH]; cbn [fill_slots].
  - exists [], O. auto.
  - destruct IH as (slots' & n & E & H' & Hc). rewrite E. destruct s as [rows|].
    + exists (Some rows :: slots'), n. split; [reflexivity|]. split; [constructor; [apply first_history_more; exact Hs|exact H']|].
      unfold count_some in *. cbn [filter length]. lia.
    + destruct (find_history_spec t id fuel W Hf) as (Hy & Hn). destruct (in_tree_dec t id) as [Hin|Hin].
      * destruct (Hy Hin) as (rows & -> & Hh). exists (Some rows :: slots'), (S n). split; [reflexivity|]. split.
        -- constructor; [|exact H']. exists seen, t, []. auto.
        -- unfold count_some in *. cbn [filter length]. lia.
      * rewrite (Hn Hin). exists (None :: slots'), n. split; [reflexivity|]. split; [|unfold count_some in *; cbn [filter length]; lia].
        constructor; [|exact H']. cbn. apply Forall_app. auto.
Qed.

Lemma count_some_le {A} (l : list (option A)) : (count_some l <= length l)%nat.
Proof. unfold count_some. induction l as [|[a|] l IH]; cbn [filter length]; lia. Qed.

Lemma count_some_all {A} (l : list (option A)) : count_some l = length l -> Forall (fun o => o <> None) l.
Proof.
  unfold count_some. induction l as [|[a|] l IH]; cbn [filter length]; intros H; [constructor|constructor; [discriminate|apply IH; lia]|].
  pose proof (count_some_le l) as H1. unfold count_some in H1. lia.
Qed.

(** After all files: every slot is the history in the first file that has the root, or empty if no file has it. *)
Lemma search_files_spec fuel roots : forall files seen slots found, Forall tree_ok files -> Forall (fun t => (length t <= fuel)%nat) files ->
  Forall2 (slot_ok seen) roots slots -> found = count_some slots ->
  exists slots', search_files fuel files roots slots found = Some slots' /\ Forall2 (slot_ok (seen ++ files)) roots slots'.
Proof.
  induction files as [|t files IH]; intros seen slots found W F H Hfound; cbn [search_files].
  - exists slots. rewrite app_nil_r. auto.
  - inversion_clear W. inversion_clear F. destruct (fill_slots_spec t fuel seen H0 H2 roots slots H) as (slots' & n & -> & H' & Hc).
    destruct (Nat.eqb_spec (found + n) (length roots)) as [Eq|].
    + exists slots'. split; [reflexivity|]. assert (Ls : length slots' = length roots) by (clear - H'; induction H'; cbn; congruence).
      assert (Ha : Forall (fun o => o <> None) slots') by (apply count_some_all; lia).
      clear - H' Ha. induction H' as [|id s roots slots Hs H' IH]; [constructor|]. inversion_clear Ha. constructor; [|apply IH; assumption].
      destruct s as [rows|]; [|congruence]. destruct Hs as (b & f & a & E & Hb & Hh). exists b, f, (a ++ files). split; [|auto].
      replace (seen ++ t :: files) with ((seen ++ [t]) ++ files) by (rewrite <- app_assoc; reflexivity). rewrite E, <- app_assoc. reflexivity.
    + destruct (IH (seen ++ [t]) slots' (found + n)%nat) as (s2 & E2 & H2'); try assumption; [lia|]. exists s2. split; [exact E2|]. rewrite <- app_assoc in H2'. exact H2'.
Qed.

Definition shift (offset : Z) (p : Z * Z) : Z * Z := (fst p, snd p + offset).

Lemma finish_spec offset files roots slots : Forall2 (slot_ok files) roots slots ->
  (Forall (fun id => exists t, In t files /\ in_tree t id) roots -> exists hists, finish offset roots slots = inr (map (map (shift offset)) hists) /\ Forall2 (first_history files) roots hists) /\
  (forall before id after, roots = before ++ id :: after -> Forall (fun id => exists t, In t files /\ in_tree t id) before -> (forall t, In t files -> ~ in_tree t id) -> finish offset roots slots = inl id).
Proof.
  intros H. induction H as [|id s roots slots Hs H (IH1 & IH2)]; cbn [finish].
  - split; [intros _; exists []; split; constructor|]. intros before id after E. destruct before; discriminate.
  - split.
    + intros Ha. inversion_clear Ha. destruct (IH1 H1) as (hists & -> & Hh). destruct s as [rows|].
      * exists (rows :: hists). split; [reflexivity|]. constructor; assumption.
      * destruct H0 as (t & Ht & Hin). cbn in Hs. rewrite Forall_forall in Hs. elim (Hs t Ht Hin).
    + intros [|b0 before] id' after E Hb Hn; cbn [app] in E; injection E as <- ->.
      * destruct s as [rows|]; [|reflexivity]. destruct Hs as (b & f & a & -> & _ & root & hs & (He & i & Hi & _) & _). elim (Hn f); [apply in_or_app; right; left; reflexivity|]. exists i, root. auto.
      * inversion_clear Hb. destruct s as [rows|].
        -- rewrite (IH2 before id' after eq_refl H1 Hn). reflexivity.
        -- destruct H0 as (t & Ht & Hin). cbn in Hs. rewrite Forall_forall in Hs. elim (Hs t Ht Hin).
Qed.

(** Snapshots increase along a line. *)
Lemma line_up_increasing t : tree_ok t -> forall ds i h, in_list t i h -> line_up t h ds ->
  Forall (fun d => th_index d < th_index h) ds /\ (forall a b, (a < b < length ds)%nat -> forall d1 d2, nth_error ds a = Some d1 -> nth_error ds b = Some d2 -> th_index d2 < th_index d1) /\ Forall (fun d => exists j, in_list t j d) ds.
Proof.
  intros W ds. induction ds as [|d ds IH]; intros i h Hi Hl; [split; [constructor|]; split; [cbn; lia|constructor]|].
  destruct Hl as (Hd & Hl). destruct (desc_in t i h d W Hi Hd) as (j & Hj & Hdj). destruct (IH j d Hdj Hl) as (H1 & H2 & H3).
  destruct (W i h Hi) as (Ei & _). destruct (W j d Hdj) as (Ej & _). assert (Hlt : th_index d < th_index h) by lia.
  split; [constructor; [exact Hlt|]; eapply Forall_impl; [|exact H1]; cbn; intros; lia|]. split; [|constructor; eauto].
  intros [|a] [|b] Hab d1 d2 E1 E2; cbn in *; try lia.
  - injection E1 as <-. rewrite Forall_forall in H1. apply H1. eapply nth_error_In; eauto.
  - apply (H2 a b ltac:(lia)); assumption.
Qed.

Lemma line_down_decreasing t : tree_ok t -> forall ds i h, in_list t i h -> line_down t h ds ->
  Forall (fun d => th_index h < th_index d) ds /\ (forall a b, (a < b < length ds)%nat -> forall d1 d2, nth_error ds a = Some d1 -> nth_error ds b = Some d2 -> th_index d1 < th_index d2) /\ Forall (fun d => exists j, in_list t j d) ds.
Proof.
  intros W ds. induction ds as [|d ds IH]; intros i h Hi Hl; [split; [constructor|]; split; [cbn; lia|constructor]|].
  destruct Hl as (Hd & Hl). destruct (prog_in t i h d W Hi Hd) as (j & Hj & Hdj). destruct (IH j d Hdj Hl) as (H1 & H2 & H3).
  destruct (W i h Hi) as (Ei & _). destruct (W j d Hdj) as (Ej & _). assert (Hlt : th_index h < th_index d) by lia.
  split; [constructor; [exact Hlt|]; eapply Forall_impl; [|exact H1]; cbn; intros; lia|]. split; [|constructor; eauto].
  intros [|a] [|b] Hab d1 d2 E1 E2; cbn in *; try lia.
  - injection E1 as <-. rewrite Forall_forall in H1. apply H1. eapply nth_error_In; eauto.
  - apply (H2 a b ltac:(lia)); assumption.
Qed.

Fixpoint strictly_up (l : list Z) : Prop := match l with [] => True | a :: l' => Forall (fun b => a < b) l' /\ strictly_up l' end.

Lemma strictly_up_app l1 l2 : strictly_up l1 -> strictly_up l2 -> (forall a b, In a l1 -> In b l2 -> a < b) -> strictly_up (l1 ++ l2).
Proof.
  induction l1 as [|a l1 IH]; cbn; [auto|]. intros (H1 & H2) H3 H. split.
  - apply Forall_app. split; [exact H1|]. apply Forall_forall. intros b Hb. apply H; auto.
  - apply IH; auto.
Qed.

Lemma main_line_increasing t root hs : tree_ok t -> (exists i, in_list t i root) -> main_line t root hs -> strictly_up (map snd (map (row t) hs)).
Proof.
  intros W (i & Hi) (ps & ds & Hp & Hd & ->). rewrite map_map.
  assert (Up : forall ds h i, in_list t i h -> line_up t h ds -> strictly_up (map (fun x => snd (row t x)) ds) /\ Forall (fun d => th_index d < th_index h) ds).
  { induction ds0 as [|d ds0 IH]; intros h j Hj Hl; [split; constructor|]. destruct (line_up_increasing t W _ j h Hj Hl) as (H1 & _ & _). split; [|exact H1].
    destruct Hl as (Hdd & Hl). destruct (desc_in t j h d W Hj Hdd) as (k & _ & Hk). destruct (IH d k Hk Hl) as (H2 & H3). cbn [map strictly_up]. split; [|exact H2].
    apply Forall_map. eapply Forall_impl; [|exact H3]. cbn. intros; lia. }
  assert (Down : forall ds h i, in_list t i h -> line_down t h ds -> strictly_up (map (fun x => snd (row t x)) (rev ds)) /\ Forall (fun d => th_index h < th_index d) ds).
  { induction ds0 as [|d ds0 IH]; intros h j Hj Hl; [split; constructor|]. destruct (line_down_decreasing t W _ j h Hj Hl) as (H1 & _ & _). split; [|exact H1].
    destruct Hl as (Hdd & Hl). destruct (prog_in t j h d W Hj Hdd) as (k & _ & Hk). destruct (IH d k Hk Hl) as (H2 & H3). cbn [rev]. rewrite map_app. apply strictly_up_app; [exact H2|cbn; auto|].
    intros a b Ha Hb. cbn [map In] in Hb. destruct Hb as [<-|[]]. apply in_map_iff in Ha. destruct Ha as (x & <- & Hx). apply in_rev in Hx. rewrite Forall_forall in H3. specialize (H3 x Hx). cbn. lia. }
  destruct (Up ds root i Hi Hd) as (U1 & U2). destruct (Down ps root i Hi Hp) as (D1 & D2). rewrite Forall_forall in U2, D2.
  rewrite map_app. apply strictly_up_app; [exact D1| |].
  - cbn [map app strictly_up]. split; [|exact U1]. apply Forall_map, Forall_forall. intros x Hx. specialize (U2 x Hx). cbn. lia.
  - intros a b Ha Hb. apply in_map_iff in Ha. destruct Ha as (x & <- & Hx). apply in_rev in Hx. specialize (D2 x Hx).
    cbn [map app In] in Hb. destruct Hb as [<-|Hb]; [cbn; lia|]. apply in_map_iff in Hb. destruct Hb as (y & <- & Hy). specialize (U2 y Hy). cbn. lia.
Qed.
