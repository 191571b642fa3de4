(** * C196: the configuration chooses the reader of the snapshots. *)
From Verif Require Import GoBase GoBaseFacts BytesModel OrderModel GadgetModel GadgetSpec GadgetProofs2 LGadgetModel LGadgetSpec EnvModel GlobalModel DispatchModel Props_Gadget Props_LGadget Props_Global.
From Coq Require Import ZArith Lia.
Import List ListNotations.
Local Open Scope Z_scope.
Local Open Scope list_scope.

(** The name of a kind of snapshot in the config file (the comments of cmd.go:477-481). *)
Definition reader_name (r : reader) : string :=
  match r with RGotetra => "gotetra" | RLGadget2 _ _ => "LGadget-2" | RGadget2 _ _ => "Gadget-2" | RARTIO => "ARTIO" | RBolshoi _ => "Bolshoi" | RBolshoiP _ => "BolshoiP" | RNil _ _ _ _ _ => "nil" end.
Definition type_name (t : snap_type) : string :=
  match t with Gotetra => "gotetra" | LGadget2 => "LGadget-2" | Gadget2 => "Gadget-2" | ARTIO => "ARTIO" | Bolshoi => "Bolshoi" | BolshoiP => "BolshoiP" | NilSnap => "nil" end.
(** The byte order that a value of Endianness names on a machine with the order sys. *)
Definition named_order (sys : order) (flag : bytes) (e : order) : Prop :=
  (flag = lit "LittleEndian" /\ e = LE) \/ (flag = lit "BigEndian" /\ e = BE) \/ (flag = lit "SystemOrder" /\ e = sys).
Definition reader_order (r : reader) : option order := match r with RLGadget2 e _ | RGadget2 e _ | RBolshoi e | RBolshoiP e => Some e | _ => None end.

Section Accepted.
Variables (parseFloat : bytes -> option Z) (toLower : bytes -> bytes) (isMinus1 : Z -> bool) (fminus1 f1 : Z) (dirOK : bytes -> bool).
Notation read := (read_global Z parseFloat toLower isMinus1 fminus1 f1 dirOK).

Lemma one_of_In b l : one_of b l = true -> exists s, In s l /\ b = lit s.
Proof.
  unfold one_of. intros H. apply existsb_exists in H. destruct H as (s & Hs & E). apply in_map_iff in Hs. destruct Hs as (s' & <- & Hs). exists s'. split; [exact Hs|]. apply beq_true in E. congruence.
Qed.
Lemma accepted text g : read text = Ok g ->
  one_of (g_snapshotType g) ["gotetra"; "LGadget-2"; "Gadget-2"; "ARTIO"; "Bolshoi"; "BolshoiP"; "nil"]%string = true /\
  one_of (g_endianness g) ["LittleEndian"; "BigEndian"; "SystemOrder"]%string = true.
Proof.
  unfold read_global. destruct (ConfigModel.ReadConfig _ _ _ _ _ _) as [[| |] st]; try discriminate. intros H. unfold validate in H.
  set (g0 := fields Z fminus1 st) in *. destruct (VersionModel.validateVersion VersionModel.SourceVersion (g_version g0)); [|discriminate]. cbn [negb] in H.
  destruct (one_of (g_snapshotType g0) _) eqn:T; [|discriminate]. cbn [negb] in H. destruct (one_of (g_haloType g0) _); [|discriminate]. cbn [negb] in H.
  destruct (units Z g0) as [g1|] eqn:U; [|discriminate].
  destruct (one_of (g_treeType g1) _); [|discriminate]. cbn [negb] in H. destruct (halo_check Z dirOK g1); [|discriminate]. cbn [negb] in H. destruct (nil_check Z isMinus1 g1); [|discriminate]. cbn [negb] in H.
  destruct (one_of (g_endianness g1) _) eqn:E; [|discriminate]. cbn [negb] in H.
  destruct (List.length (g_valueNames g1) =? List.length (g_valueColumns g1))%nat; [|discriminate]. cbn [negb] in H.
  destruct (List.length (g_valueNames g1) =? List.length (g_valueComments g1))%nat; [|discriminate]. cbn [negb] in H.
  destruct ((2 <? g_npartNum g1) || (g_npartNum g1 <=? 0)); [discriminate|]. destruct (validate_format (format_info Z g1)); try discriminate. injection H as <-.
  split; [|exact E]. unfold units in U. destruct (beq (g_haloType g0) (lit "nil")); [injection U as <-; exact T|].
  destruct (one_of (strip_spaces (g_positionUnits g0)) length_units); [|discriminate]. destruct (one_of (strip_spaces (g_radiusUnits g0)) length_units); [|discriminate].
  destruct (one_of (strip_spaces (g_massUnits g0)) _); [|discriminate]. injection U as <-. exact T.
Qed.
Lemma buffer_order_named sys flag : one_of flag ["LittleEndian"; "BigEndian"; "SystemOrder"]%string = true -> named_order sys flag (buffer_order sys flag).
Proof.
  intros H. apply one_of_In in H. destruct H as (s & Hs & ->). unfold named_order. destruct Hs as [<-|[<-|[<-|[]]]].
  - left. split; reflexivity.
  - right; left. split; reflexivity.
  - right; right. split; [reflexivity|]. destruct sys; reflexivity.
Qed.

(** Every accepted configuration has a reader and a catalogue, both of the type it names, and the reader of a binary format uses the byte order it names. *)
Theorem C196_reader : forall sys text g, read text = Ok g -> exists r t, get_vector_buffer sys g = Some r /\ catalog_type g = Some t /\
  lit (reader_name r) = g_snapshotType g /\ lit (type_name t) = g_snapshotType g /\ forall e, reader_order r = Some e -> named_order sys (g_endianness g) e.
Proof.
  intros sys text g H. apply accepted in H. destruct H as (T & E). apply one_of_In in T. destruct T as (s & Hs & Es). pose proof (buffer_order_named sys _ E) as N. unfold get_vector_buffer, catalog_type. rewrite Es.
  repeat (destruct Hs as [<-|Hs]; [eexists _, _; split; [reflexivity|]; split; [reflexivity|]; split; [reflexivity|]; split; [reflexivity|]; cbn [reader_order]; intros e He; (discriminate || (injection He as <-; exact N))|]).
  destruct Hs.
Qed.
(** The configuration's own units and particle types are those that a Gadget-2 file is read with: an accepted configuration that describes a file (byte order, types, units) reads it correctly. *)
Theorem C196_gadget : forall F sys e cap stale text g idw h parts rest, read text = Ok g -> g_snapshotType g = lit "Gadget-2" -> named_order sys (g_endianness g) e ->
  (forall n, length (stale n) = n) -> good_snapshot idw h parts -> idw = 8%nat \/ idw = 4%nat -> GadgetSpec.typed parts <> [] -> Z.of_nat (idw * length (GadgetSpec.typed parts)) < 2 ^ 31 ->
  (12 * length (GadgetSpec.typed parts) <= cap)%nat ->
  let c := {| c_dm := g_dmTypes g; c_single := g_singleMass g; c_mass_units := g_gadgetMass g; c_pos_units := g_gadgetPosition g |} in
  exists e' c', get_vector_buffer sys g = Some (RGadget2 e' c') /\
    read_gadget2 F sys e' cap stale c' (gadget_file e idw h c parts ++ rest) =
    Some (let dm := dm_particles c parts in
          match map_opt (map_opt (coord_of F h c)) (map (fun tp => p_x (snd tp)) dm) with
          | Some X => Some (X, map (velocity_of F h) dm, map (mass_of F h c) dm, map (fun tp => p_id (snd tp)) dm)
          | None => None
          end).
Proof.
  intros F sys e cap stale text g idw h parts rest H T N Hst Hg Hw Hne Hs Hc c. exists (buffer_order sys (g_endianness g)), c. split; [unfold get_vector_buffer; rewrite T; reflexivity|].
  apply accepted in H. destruct H as (_ & E). pose proof (buffer_order_named sys _ E) as N'.
  assert (Ee : buffer_order sys (g_endianness g) = e).
  { destruct N as [(A & B)|[(A & B)|(A & B)]], N' as [(A' & B')|[(A' & B')|(A' & B')]]; rewrite A in A'; try discriminate; congruence. }
  rewrite Ee. apply C34_dark_matter_only; auto.
Qed.
(** Likewise for little endian LGadget-2 files (C146: big endian ones are not read correctly), with the number of words of a count that the configuration gives. *)
Theorem C196_lgadget : forall F sys cap stale text g mass h parts rest, read text = Ok g -> g_snapshotType g = lit "LGadget-2" -> named_order sys (g_endianness g) LE ->
  (forall n, length (stale n) = n) -> lg_good (g_npartNum g) h parts -> (12 * length parts <= cap)%nat ->
  exists e' n', get_vector_buffer sys g = Some (RLGadget2 e' n') /\
    read_lgadget2 F sys e' cap stale n' mass (lgadget_file LE h parts ++ rest) =
    Some (match map_opt (map_opt (lg_wrapped F h)) (map p_x parts) with
          | Some X => Some (X, map (fun p => map (fun v => f32_mul F v (f32_of_64 F (sqrt_64 F (nth 12 h 0)))) (p_v p)) parts, repeat mass (length parts), map p_id parts)
          | None => None
          end).
Proof.
  intros F sys cap stale text g mass h parts rest H T N Hst Hg Hc. exists (buffer_order sys (g_endianness g)), (g_npartNum g). split; [unfold get_vector_buffer; rewrite T; reflexivity|].
  apply accepted in H. destruct H as (_ & E). pose proof (buffer_order_named sys _ E) as N'.
  assert (Ee : buffer_order sys (g_endianness g) = LE).
  { destruct N as [(A & B)|[(A & B)|(A & B)]], N' as [(A' & B')|[(A' & B')|(A' & B')]]; rewrite A in A'; try discriminate; congruence. }
  rewrite Ee. apply C146_particles_partial; auto.
Qed.
End Accepted.
Print Assumptions C196_reader.
Print Assumptions C196_gadget.
Print Assumptions C196_lgadget.

(** The configuration of C114's example is accepted, and gives the nil reader with its own numbers. *)
Example C196_nonvacuous : exists g, zread nil1 = Ok g /\ get_vector_buffer LE g = Some (RNil 27 73 70 [33; 50; 100] 250) /\ catalog_type g = Some NilSnap.
Proof.
  destruct (zread nil1) as [g| |] eqn:E; [|vm_compute in E; discriminate|vm_compute in E; discriminate]. exists g. split; [reflexivity|].
  vm_compute in E. injection E as <-. split; reflexivity.
Qed.
