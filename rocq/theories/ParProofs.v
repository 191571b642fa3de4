(** * Proofs about every interleaving of the worker groups. *)
From Coq Require Import Lia Arith Permutation.
From Verif Require Import ParModel ListFacts.
Import List ListNotations.
Local Open Scope nat_scope.

(** ** Strides *)
Lemma stride_from_in skip n : 1 <= skip -> forall fuel i x, n <= fuel + i ->
  (In x (stride_from fuel i skip n) <-> x < n /\ exists k, x = i + k * skip).
Proof.
  intros Hs. induction fuel as [|fuel IH]; intros i x Hf; cbn [stride_from].
  - split; [intros []|]. intros [Hx [k ->]]. lia.
  - destruct (Nat.ltb_spec i n) as [Hi|Hi].
    + cbn [In]. rewrite IH by lia. split.
      * intros [<-|[Hx [k Hk]]]; [split; [lia|exists 0; lia]|]. split; [lia|]. exists (S k). lia.
      * intros [Hx [[|k] Hk]]; [left; lia|]. right. split; [lia|]. exists k. lia.
    + split; [intros []|]. intros [Hx [k ->]]. lia.
Qed.

Lemma stride_from_nodup skip n : 1 <= skip -> forall fuel i, n <= fuel + i -> NoDup (stride_from fuel i skip n).
Proof.
  intros Hs. induction fuel as [|fuel IH]; intros i Hf; cbn [stride_from]; [constructor|].
  destruct (Nat.ltb_spec i n) as [Hi|Hi]; [|constructor]. constructor; [|apply IH; lia].
  rewrite stride_from_in by lia. intros [_ [k Hk]]. lia.
Qed.

Lemma stride_in offset skip n x : 1 <= skip -> (In x (stride offset skip n) <-> x < n /\ exists k, x = offset + k * skip).
Proof. intros H. unfold stride. apply stride_from_in; lia. Qed.
Lemma stride_nodup offset skip n : 1 <= skip -> NoDup (stride offset skip n).
Proof. intros H. apply stride_from_nodup; lia. Qed.

(** The shares of the workers are a partition of the multiples of [m]. *)
Lemma stride_partition m W n : 1 <= m -> 1 <= W ->
  Permutation (flat_map (fun w => stride (w * m) (W * m) n) (seq 0 W))
              (filter (fun i => i mod m =? 0) (seq 0 n)).
Proof.
  intros Hm HW. assert (Hs : 1 <= W * m) by nia. apply NoDup_Permutation.
  - apply NoDup_flat_map'; [apply seq_NoDup| intros; apply stride_nodup; lia|].
    intros a b x Ha Hb Hxa Hxb.
    rewrite stride_in in Hxa by lia. rewrite stride_in in Hxb by lia. rewrite in_seq in Ha, Hb.
    destruct Hxa as [_ [k Hk]], Hxb as [_ [k' Hk']].
    assert (E : a + k * W = b + k' * W) by nia.
    assert (Ea : (a + k * W) mod W = a) by (rewrite Nat.mod_add by lia; apply Nat.mod_small; lia).
    assert (Eb : (b + k' * W) mod W = b) by (rewrite Nat.mod_add by lia; apply Nat.mod_small; lia).
    congruence.
  - apply NoDup_filter, seq_NoDup.
  - intros x. rewrite in_flat_map, filter_In, in_seq, Nat.eqb_eq. split.
    + intros [w [Hw Hx]]. rewrite stride_in in Hx by lia. destruct Hx as [Hx [k ->]]. split; [lia|].
      replace (w * m + k * (W * m)) with ((w + k * W) * m) by nia. apply Nat.mod_mul. lia.
    + intros [Hx Hmod]. apply Nat.mod_divide in Hmod; [|lia]. destruct Hmod as [q ->].
      exists (q mod W). rewrite in_seq. split; [pose proof (Nat.mod_upper_bound q W); lia|].
      rewrite stride_in by lia. split; [lia|]. exists (q / W).
      pose proof (Nat.div_mod q W). nia.
Qed.

Lemma filter_all {A} (f : A -> bool) l : (forall x, In x l -> f x = true) -> filter f l = l.
Proof.
  induction l as [|a l IH]; intros H; cbn; [easy|]. rewrite (H a (or_introl eq_refl)), IH; [easy|].
  intros x Hx. apply H. now right.
Qed.

Lemma stride_partition1 W n : 1 <= W -> Permutation (flat_map (fun w => stride w W n) (seq 0 W)) (seq 0 n).
Proof.
  intros HW. pose proof (stride_partition 1 W n (le_n _) HW) as H.
  rewrite filter_all in H by (intros x _; now rewrite Nat.mod_1_r).
  erewrite flat_map_ext; [exact H|]. intros w. cbn beta. now rewrite !Nat.mul_1_r.
Qed.

Lemma filter_length_le {A} (f : A -> bool) l : length (filter f l) <= length l.
Proof. induction l as [|a l IH]; cbn; [lia|]. destruct (f a); cbn; lia. Qed.

(** ** set_nth *)
Lemma set_nth_length {A} (l : list A) i v : i < length l -> length (set_nth l i v) = length l.
Proof.
  intros H. unfold set_nth. rewrite app_length. cbn [length]. rewrite firstn_length, skipn_length. lia.
Qed.
Lemma nth_error_set_nth_eq {A} (l : list A) i v : i < length l -> nth_error (set_nth l i v) i = Some v.
Proof.
  intros H. unfold set_nth. rewrite nth_error_app2 by (rewrite firstn_length; lia).
  rewrite firstn_length, Nat.min_l by lia. now rewrite Nat.sub_diag.
Qed.
Lemma nth_error_skipn' {A} n (l : list A) i : nth_error (skipn n l) i = nth_error l (n + i).
Proof. revert l. induction n as [|n IH]; intros [|a l]; cbn; first [easy|apply IH|now destruct i]. Qed.
Lemma nth_error_firstn' {A} n (l : list A) i : i < n -> nth_error (firstn n l) i = nth_error l i.
Proof. revert l i. induction n as [|n IH]; intros [|a l] [|i] H; cbn; try easy; try lia. apply IH. lia. Qed.
Lemma nth_error_set_nth_ne {A} (l : list A) i j v : i < length l -> i <> j ->
  nth_error (set_nth l i v) j = nth_error l j.
Proof.
  intros H Hne. unfold set_nth. destruct (Nat.lt_ge_cases j i) as [Hj|Hj].
  - rewrite nth_error_app1 by (rewrite firstn_length; lia). now apply nth_error_firstn'.
  - rewrite nth_error_app2 by (rewrite firstn_length; lia). rewrite firstn_length, Nat.min_l by lia.
    destruct (j - i) as [|k] eqn:E; [lia|]. cbn [nth_error]. rewrite nth_error_skipn'. f_equal. lia.
Qed.
Lemma nth_error_split' {A} (l : list A) i v : nth_error l i = Some v -> l = firstn i l ++ v :: skipn (S i) l.
Proof.
  revert l. induction i as [|i IH]; intros [|a l] H; cbn in H; try easy.
  - inversion H. reflexivity.
  - cbn [firstn app]. rewrite skipn_cons. f_equal. now apply IH.
Qed.

(** ** Sequential execution *)
Definition exec {A} (acts : list (action A)) (mem : nat -> A) : nat -> A :=
  fold_left (fun m a => set_cell m (fst a) (snd a (m (fst a)))) acts mem.
Definition cell_val {A} (c : nat) (acts : list (action A)) (v : A) : A :=
  fold_left (fun v a => if c =? fst a then snd a v else v) acts v.

Lemma exec_cell {A} (acts : list (action A)) : forall mem c, exec acts mem c = cell_val c acts (mem c).
Proof.
  induction acts as [|[c' f] acts IH]; intros mem c; cbn; [easy|]. unfold exec in IH. rewrite IH.
  unfold set_cell. cbn. destruct (Nat.eqb_spec c c') as [->|]; reflexivity.
Qed.
Lemma cell_val_app {A} c (a b : list (action A)) v : cell_val c (a ++ b) v = cell_val c b (cell_val c a v).
Proof. unfold cell_val. apply fold_left_app. Qed.
Lemma cell_val_other {A} c (acts : list (action A)) v : (forall a, In a acts -> fst a <> c) -> cell_val c acts v = v.
Proof.
  revert v. induction acts as [|a acts IH]; intros v H; cbn; [easy|].
  destruct (Nat.eqb_spec c (fst a)) as [E|E]; [exfalso; apply (H a); [now left|easy]|].
  apply IH. intros b Hb. apply H. now right.
Qed.

Lemma cell_val_concat {A} (prog : nat -> list (action A)) c w : (forall w' a, In a (prog w') -> fst a = c -> w' = w) ->
  forall l v, NoDup l -> In w l -> cell_val c (flat_map prog l) v = cell_val c (prog w) v.
Proof.
  intros Hown. induction l as [|a l IH]; intros v Hnd Hin; [easy|]. cbn [flat_map]. rewrite cell_val_app.
  inversion Hnd; subst. destruct (Nat.eq_dec a w) as [->|Hne].
  - rewrite (cell_val_other c (flat_map prog l)); [easy|]. intros b Hb Hc. apply in_flat_map in Hb.
    destruct Hb as [w' [Hw' Hb]]. rewrite (Hown _ _ Hb Hc) in Hw'. easy.
  - destruct Hin as [->|Hin]; [easy|]. rewrite IH by easy. f_equal. apply cell_val_other.
    intros b Hb Hc. apply Hne. eauto.
Qed.

(** ** Every interleaving *)
Section Inter.
Context {A B : Type} (W cap : nat) (msg : nat -> (nat -> A) -> B) (inline : bool).
Context (prog : nat -> list (action A)) (mem0 : nat -> A).
Hypothesis Hcap : W <= cap.

Local Notation step := (step W cap msg inline).
Local Notation steps := (steps W cap msg inline).
Local Notation start := (start (B:=B) W prog mem0).

Definition sent_ws (ws : list (worker A)) : nat :=
  length (filter (fun w => match w with Sent => true | _ => false end) ws).

Definition work (w : worker A) : nat := match w with Running rest => length rest + 2 | Sent => 0 end.
Definition total (ws : list (worker A)) : nat := list_sum (map work ws).
Definition measure (s : state A B) : nat := total (workers s) + length (channel s).

Lemma total_set ws w old new : nth_error ws w = Some old -> total (set_nth ws w new) + work old = total ws + work new.
Proof.
  intros H. rewrite (nth_error_split' _ _ _ H) at 2. unfold total, set_nth.
  rewrite !map_app, !list_sum_app. cbn. lia.
Qed.

Lemma sent_set ws w old new : nth_error ws w = Some old ->
  sent_ws (set_nth ws w new) + sent_ws [old] = sent_ws ws + sent_ws [new].
Proof.
  intros H. rewrite (nth_error_split' _ _ _ H) at 2. unfold sent_ws, set_nth.
  rewrite !filter_app, !app_length. cbn [filter]. destruct old, new; cbn [length]; lia.
Qed.

Lemma nth_error_lt {X} (l : list X) i v : nth_error l i = Some v -> i < length l.
Proof. intros H. apply nth_error_Some. congruence. Qed.

Lemma sent_all ws : sent_ws ws = length ws -> forall w v, nth_error ws w = Some v -> v = Sent.
Proof.
  unfold sent_ws. induction ws as [|a ws IH]; intros H [|w] v Hv; cbn in *; try easy.
  - inversion Hv; subst. destruct v; [|easy]. exfalso.
    pose proof (filter_length_le (fun w => match w with Sent => true | _ => false end) ws). lia.
  - destruct a; cbn in H.
    + exfalso. pose proof (filter_length_le (fun w => match w with Sent => true | _ => false end) ws). lia.
    + eapply IH; [lia|exact Hv].
Qed.

(** The basic invariant, for any capacity of at least W. *)
Definition inv (s : state A B) : Prop :=
  length (workers s) = W /\ length (channel s) + length (received s) = sent_ws (workers s).

Lemma inv_start : inv start.
Proof.
  unfold inv, ParModel.start. cbn. rewrite map_length, seq_length. split; [easy|].
  unfold sent_ws. induction (seq 0 W); [easy|]. cbn. easy.
Qed.

Lemma inv_step s s' : inv s -> step s s' -> inv s'.
Proof.
  unfold inv. intros Hi Hst. revert Hi. inversion Hst; subst; cbn [workers channel received]; intros [HW Hs].
  - pose proof (nth_error_lt _ _ _ H). rewrite set_nth_length by easy. split; [easy|].
    pose proof (sent_set _ _ _ (Running rest) H) as E. change (sent_ws [Running ((c, f) :: rest)]) with 0 in E. change (sent_ws [Running rest]) with 0 in E.
    lia.
  - pose proof (nth_error_lt _ _ _ H). rewrite set_nth_length by easy. split; [easy|].
    pose proof (sent_set _ _ _ Sent H) as E. change (sent_ws [Running []]) with 0 in E. change (sent_ws [Sent]) with 1 in E. rewrite app_length. cbn [length]. lia.
  - split; [easy|]. rewrite H in Hs. rewrite app_length. cbn [length] in *. lia.
Qed.

Lemma inv_steps k s : steps k start s -> inv s.
Proof.
  intros H. remember start as s0 eqn:E. revert E. induction H as [s|k s s' s'' H1 IH H2]; intros ->.
  - apply inv_start.
  - eapply inv_step; [apply IH; reflexivity|exact H2].
Qed.

Lemma sent_le ws : sent_ws ws <= length ws.
Proof. unfold sent_ws. apply filter_length_le. Qed.

Lemma measure_step s s' : step s s' -> S (measure s') = measure s.
Proof.
  unfold measure. intros Hst. inversion Hst; subst; cbn [workers channel received].
  - pose proof (total_set _ _ _ (Running rest) H) as E. cbn [work length] in E. lia.
  - pose proof (total_set _ _ _ Sent H) as E. cbn [work length] in E. rewrite app_length. cbn [length]. lia.
  - rewrite H. cbn [length]. lia.
Qed.

Lemma measure_steps k s : steps k start s -> k + measure s = measure start.
Proof.
  intros H. remember start as s0 eqn:E. revert E. induction H as [s|k s s' s'' H1 IH H2]; intros ->; [easy|].
  specialize (IH eq_refl). apply measure_step in H2. lia.
Qed.

Lemma measure_start : measure start = list_sum (map (fun w => length (prog w) + 2) (seq 0 W)).
Proof.
  unfold measure, total, ParModel.start. cbn [workers channel length]. rewrite map_map. cbn [work]. lia.
Qed.

Lemma finished_all k s : steps k start s -> finished W s ->
  (forall w, w < W -> nth_error (workers s) w = Some Sent) /\ channel s = [] /\ measure s = 0.
Proof.
  intros H Hf. destruct (inv_steps _ _ H) as [HW Hs]. unfold finished in Hf.
  pose proof (sent_le (workers s)). assert (Hc : length (channel s) = 0) by lia.
  assert (Ha : sent_ws (workers s) = length (workers s)) by lia.
  apply length_zero_iff_nil in Hc. split; [|split; [easy|]].
  - intros w Hw. destruct (nth_error (workers s) w) as [v|] eqn:E; [|apply nth_error_None in E; lia].
    now rewrite (sent_all _ Ha _ _ E).
  - unfold measure. rewrite Hc. cbn. assert (Hall : forall v, In v (workers s) -> v = Sent).
    { intros v Hv. apply In_nth_error in Hv. destruct Hv as [i Hi]. eapply sent_all; eauto. }
    unfold total. clear -Hall. induction (workers s) as [|a l IH]; [easy|]. cbn.
    rewrite (Hall a (or_introl eq_refl)). rewrite Nat.add_0_r in *. cbn. apply IH. intros v Hv. apply Hall. now right.
Qed.

Lemma not_sent ws : sent_ws ws < length ws -> exists w rest, nth_error ws w = Some (Running rest).
Proof.
  unfold sent_ws. induction ws as [|a ws IH]; cbn; [lia|]. destruct a as [rest|]; cbn; intros H.
  - now exists 0, rest.
  - destruct IH as [w [rest E]]; [lia|]. now exists (S w), rest.
Qed.

Lemma progress k s : steps k start s -> ~ finished W s -> exists s', step s s'.
Proof.
  intros H Hf. destruct (inv_steps _ _ H) as [HW Hs]. unfold finished in Hf.
  pose proof (sent_le (workers s)).
  destruct (Nat.eq_dec (sent_ws (workers s)) W) as [E|E].
  - (* all sent: receive *)
    destruct (channel s) as [|v rest] eqn:Ec; [cbn in Hs; lia|]. eexists. eapply step_receive; [exact Ec|lia|].
    intros _. destruct (nth_error (workers s) (W - 1)) as [v'|] eqn:En; [|apply nth_error_None in En; cbn in Hs; lia].
    f_equal. eapply sent_all; [|exact En]. lia.
  - destruct (not_sent (workers s)) as [w [rest Hw]]; [lia|]. destruct rest as [|[c f] rest].
    + eexists. eapply step_send; [exact Hw|]. pose proof (sent_le (workers s)). lia.
    + eexists. eapply step_work. exact Hw.
Qed.

(** ** The memory and the messages *)
Context (owner : nat -> nat).
Hypothesis Howner : forall w a, In a (prog w) -> owner (fst a) = w.
Hypothesis Hmsg : forall w m m', (forall c, owner c = w -> m c = m' c) -> msg w m = msg w m'.

Definition solo (w : nat) : nat -> A := exec (prog w) mem0.

Definition minv (s : state A B) : Prop :=
  (forall w v, nth_error (workers s) w = Some v -> exists dn,
     (match v with Running rest => prog w = dn ++ rest | Sent => prog w = dn end) /\
     (forall c, owner c = w -> memory s c = cell_val c dn (mem0 c))) /\
  (forall c, W <= owner c -> memory s c = mem0 c) /\
  (exists ws, Permutation (received s ++ channel s) (map (fun w => msg w (solo w)) ws) /\ NoDup ws /\
     forall w, In w ws <-> nth_error (workers s) w = Some Sent).

Lemma minv_start : minv start.
Proof.
  unfold minv, ParModel.start. cbn. split; [|split].
  - intros w v Hv. assert (Hw : w < W) by (apply nth_error_lt in Hv; rewrite map_length, seq_length in Hv; easy).
    rewrite nth_error_map in Hv.
    replace (nth_error (seq 0 W) w) with (Some w) in Hv.
    2:{ symmetry. rewrite (nth_error_nth' _ 0) by (rewrite seq_length; lia). now rewrite seq_nth by lia. }
    cbn in Hv. inversion Hv; subst. now exists [].
  - easy.
  - exists []. split; [constructor|split; [constructor|]]. intros w. split; [easy|]. intros H.
    apply nth_error_In in H. apply in_map_iff in H. destruct H as [? [H _]]. discriminate.
Qed.

Lemma minv_step s s' : inv s -> minv s -> step s s' -> minv s'.
Proof.
  intros Hi [Hm [Hout [ws [Hp [Hnd Hin]]]]] Hst. unfold minv. revert Hi. inversion Hst; subst; cbn; intros [HW _].
  - pose proof (nth_error_lt _ _ _ H) as Hlt.
    assert (Hc : owner c = w).
    { destruct (Hm _ _ H) as [dn [E _]]. apply (Howner w (c, f)). rewrite E. apply in_or_app. right. now left. }
    split; [|split].
    + intros w' v Hv. destruct (Nat.eq_dec w w') as [<-|Hne].
      * rewrite nth_error_set_nth_eq in Hv by easy. inversion Hv; subst v.
        destruct (Hm _ _ H) as [dn [E Hmem]]. exists (dn ++ [(c, f)]). split.
        { rewrite E, <- app_assoc. reflexivity. }
        intros c' Hc'. rewrite cell_val_app. cbn. unfold set_cell.
        destruct (Nat.eqb_spec c' c) as [->|]; [now rewrite Hmem| now apply Hmem].
      * rewrite nth_error_set_nth_ne in Hv by easy. destruct (Hm _ _ Hv) as [dn [E Hmem]].
        exists dn. split; [easy|]. intros c' Hc'. unfold set_cell.
        destruct (Nat.eqb_spec c' c) as [->|]; [congruence| now apply Hmem].
    + intros c' Hc'. unfold set_cell. destruct (Nat.eqb_spec c' c) as [->|]; [cbn in HW; lia| now apply Hout].
    + exists ws. split; [easy|split; [easy|]]. intros w'. rewrite Hin.
      destruct (Nat.eq_dec w w') as [<-|Hne].
      * rewrite nth_error_set_nth_eq by easy. rewrite H. split; discriminate.
      * now rewrite nth_error_set_nth_ne.
  - pose proof (nth_error_lt _ _ _ H) as Hlt. destruct (Hm _ _ H) as [dn [E Hmem]]. rewrite app_nil_r in E.
    split; [|split; [easy|]].
    + intros w' v Hv. destruct (Nat.eq_dec w w') as [<-|Hne].
      * rewrite nth_error_set_nth_eq in Hv by easy. inversion Hv; subst v. now exists dn.
      * rewrite nth_error_set_nth_ne in Hv by easy. now apply Hm.
    + exists (w :: ws). assert (Hmw : msg w (memory s) = msg w (solo w)).
      { apply Hmsg. intros c Hc. unfold solo. rewrite exec_cell, E. now apply Hmem. }
      split; [|split].
      * cbn [map]. rewrite <- Hmw, app_assoc. apply Permutation_sym, Permutation_cons_app.
        rewrite app_nil_r. now apply Permutation_sym.
      * constructor; [|easy]. rewrite Hin, H. discriminate.
      * intros w'. cbn [In]. destruct (Nat.eq_dec w w') as [<-|Hne].
        { rewrite nth_error_set_nth_eq by easy. split; [easy|now left]. }
        rewrite nth_error_set_nth_ne by easy. rewrite <- Hin. split; [now intros [?|?]|now right].
  - split; [easy|split; [easy|]]. exists ws. rewrite H in Hp. rewrite <- app_assoc. easy.
Qed.

Lemma minv_steps k s : steps k start s -> minv s.
Proof.
  intros H. remember start as s0 eqn:E. revert E. induction H as [s|k s s' s'' H1 IH H2]; intros ->.
  - apply minv_start.
  - eapply minv_step; [eapply inv_steps; eassumption|apply IH; reflexivity|exact H2].
Qed.

Theorem parallel_result k s : steps k start s -> finished W s ->
  (forall c, memory s c = exec (flat_map prog (seq 0 W)) mem0 c) /\
  Permutation (received s) (map (fun w => msg w (exec (prog w) mem0)) (seq 0 W)).
Proof.
  intros H Hf. destruct (finished_all _ _ H Hf) as [Hall [Hch _]].
  destruct (minv_steps _ _ H) as [Hm [Hout [ws [Hp [Hnd Hin]]]]]. split.
  - intros c. rewrite exec_cell. destruct (Nat.lt_ge_cases (owner c) W) as [Hlt|Hge].
    + destruct (Hm _ _ (Hall _ Hlt)) as [dn [E Hmem]]. rewrite (Hmem c eq_refl), <- E.
      symmetry. apply cell_val_concat; [|apply seq_NoDup|apply in_seq; lia].
      intros w' a Ha Hc. rewrite <- (Howner _ _ Ha). now f_equal.
    + rewrite (Hout c Hge). symmetry. apply cell_val_other. intros a Ha Hc. apply in_flat_map in Ha.
      destruct Ha as [w [Hw Ha]]. apply in_seq in Hw. rewrite <- (Howner _ _ Ha), Hc in Hw. lia.
  - rewrite Hch, app_nil_r in Hp. etransitivity; [exact Hp|]. apply Permutation_map.
    apply NoDup_Permutation; [easy|apply seq_NoDup|]. intros w. rewrite Hin, in_seq.
    split; [|intros Hw; apply Hall; lia]. intros Hw. apply nth_error_lt in Hw.
    destruct (inv_steps _ _ H) as [HW _]. lia.
Qed.
End Inter.
