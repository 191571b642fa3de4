(** * The loop of the EvalAll methods. *)
From Verif Require Import GoBase GoBaseFacts RealBase LoopBase LoopFacts InterpModel EvalAllModel.
From Coq Require Import Reals List Lia.
Import List ListNotations.
Local Open Scope nat_scope.

Section Loop.
Context {St : Type}.
Variables (eval : St -> list R -> St * option R) (f : list R -> option R) (Inv : St -> Prop).
Hypothesis Heval : forall s a, Inv s -> snd (eval s a) = f a /\ (f a <> None -> Inv (fst (eval s a))).

Notation args mem ins i := (map (fun s => nth (w_off s + i) mem 0%R) ins).

Lemma gets_ok mem i : forall ins, Forall (fun s => i < w_len s /\ w_off s + w_len s <= List.length mem) ins -> gets mem ins i = Some (args mem ins i).
Proof.
  induction ins as [|s ins IH]; intros H; [reflexivity|]. inversion H as [|? ? (H1 & H2) H3]; subst. cbn [gets map]. unfold get.
  rewrite (proj2 (Nat.ltb_lt _ _) H1), (rd_nth mem _ 0%R) by lia. rewrite (IH H3). reflexivity.
Qed.

Variables (ins : list window) (out : window) (mem : list R) (n : nat).
Hypothesis Hins : Forall (fun s => n <= w_len s /\ w_off s + w_len s <= List.length mem) ins.
Hypothesis Hout : w_off out + w_len out <= List.length mem.
Hypothesis Hsafe : Forall (fun s => w_off out <= w_off s \/ w_off s + n <= w_off out) ins.

(** After k steps. *)

Definition inv (k : nat) (st : St * list R) : Prop :=
  Inv (fst st) /\ List.length (snd st) = List.length mem /\
  (forall i, i < k -> Some (nth (w_off out + i) (snd st) 0%R) = f (args mem ins i)) /\
  (forall j, ~ (w_off out <= j < w_off out + k) -> nth j (snd st) 0%R = nth j mem 0%R).

Lemma args_same k st : k < n -> inv k st -> args (snd st) ins k = args mem ins k.
Proof.
  intros Hk (_ & _ & _ & H). apply map_ext_in. intros s Hs. apply H. rewrite Forall_forall in Hsafe. specialize (Hsafe s Hs). lia.
Qed.
Lemma step_ok k st : k < n -> k < w_len out -> inv k st -> f (args mem ins k) <> None -> exists st', eval_step eval ins out k st = Some st' /\ inv (S k) st'.
Proof.
  intros Hk Ho I Hf. pose proof (args_same k st Hk I) as E. destruct st as [s m]. destruct I as (I1 & I2 & I3 & I4). cbn [fst snd] in *.
  unfold eval_step. rewrite gets_ok.
  2:{ rewrite Forall_forall in *. intros x Hx. specialize (Hins x Hx). lia. }
  rewrite E. destruct (Heval s (args mem ins k) I1) as (Ef & Hi). specialize (Hi Hf).
  destruct (eval s (args mem ins k)) as [s' [v|]]; cbn [fst snd] in *; [|congruence].
  unfold put. rewrite (proj2 (Nat.ltb_lt _ _) Ho). destruct (wr_some m (w_off out + k) v 0%R) as (m' & Em & Lm & Nm); [lia|]. rewrite Em.
  exists (s', m'). split; [reflexivity|]. unfold inv. cbn [fst snd]. split; [exact Hi|]. split; [congruence|]. split.
  - intros i Hi'. rewrite Nm. destruct (Nat.eqb_spec (w_off out + i) (w_off out + k)) as [e|e].
    + replace i with k by lia. exact Ef.
    + apply I3. lia.
  - intros j Hj. rewrite Nm. destruct (Nat.eqb_spec j (w_off out + k)); [lia|]. apply I4. lia.
Qed.
Lemma step_fail k st : k < n -> inv k st -> (f (args mem ins k) = None \/ w_len out <= k) -> eval_step eval ins out k st = None.
Proof.
  intros Hk I Hf. pose proof (args_same k st Hk I) as E. destruct st as [s m]. destruct I as (I1 & I2 & I3 & I4). cbn [fst snd] in *.
  unfold eval_step. rewrite gets_ok.
  2:{ rewrite Forall_forall in *. intros x Hx. specialize (Hins x Hx). lia. }
  rewrite E. destruct (Heval s (args mem ins k) I1) as (Ef & Hi).
  destruct (eval s (args mem ins k)) as [s' [v|]]; cbn [fst snd] in *; [|reflexivity].
  destruct Hf as [Hf|Hf]; [congruence|]. unfold put. rewrite (proj2 (Nat.ltb_ge _ _) Hf). reflexivity.
Qed.
Lemma loop_spec s : Inv s -> forall k, k <= n ->
  match loop k (eval_step eval ins out) (s, mem) with
  | Some st => inv k st /\ k <= w_len out
  | None => exists i, i < k /\ (f (args mem ins i) = None \/ w_len out <= i)
  end.
Proof.
  intros Hs. induction k as [|k IH]; intros Hk.
  - cbn [loop]. split; [|lia]. unfold inv. cbn [fst snd]. repeat split; auto. intros i Hi. lia.
  - cbn [loop]. specialize (IH ltac:(lia)). destruct (loop k (eval_step eval ins out) (s, mem)) as [st|].
    + destruct IH as (I & Hl). destruct (f (args mem ins k)) eqn:Ef.
      * destruct (Nat.lt_ge_cases k (w_len out)) as [Ho|Ho].
        -- destruct (step_ok k st ltac:(lia) Ho I ltac:(congruence)) as (st' & -> & I'). split; [exact I'|lia].
        -- rewrite (step_fail k st ltac:(lia) I (or_intror Ho)). exists k. split; [lia|]. right. exact Ho.
      * rewrite (step_fail k st ltac:(lia) I (or_introl Ef)). exists k. split; [lia|]. left. exact Ef.
    + destruct IH as (i & Hi & H). exists i. split; [lia|exact H].
Qed.
End Loop.
