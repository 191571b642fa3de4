(** * What the global config file and the memo directory check are supposed to do (independent of GlobalModel's functions). *)
From Verif Require Import GoBase VersionProofs GlobalModel.
Import List ListNotations.
Local Open Scope list_scope.

(** The variables that main compares: changing one of these would invalidate the cached files. *)
Definition same_relevant {F} (g1 g2 : gconfig F) : Prop :=
  g_version g1 = g_version g2 /\
  (g_snapshotFormat g1 = g_snapshotFormat g2 /\ g_snapshotType g1 = g_snapshotType g2 /\
   g_meanings g1 = g_meanings g2 /\ g_blockMins g1 = g_blockMins g2 /\ g_blockMaxes g1 = g_blockMaxes g2 /\
   g_snapMin g1 = g_snapMin g2 /\ g_snapMax g1 = g_snapMax g2) /\
  (g_haloDir g1 = g_haloDir g2 /\ g_haloType g1 = g_haloType g2 /\ g_treeDir g1 = g_treeDir g2 /\
   g_valueNames g1 = g_valueNames g2 /\ g_valueColumns g1 = g_valueColumns g2 /\
   g_positionUnits g1 = g_positionUnits g2 /\ g_massUnits g1 = g_massUnits g2) /\
  g_endianness g1 = g_endianness g2.

Definition among (s : bytes) (l : list string) : Prop := exists t, In t l /\ s = lit t.

(** s with its spaces removed. *)
Inductive despaced : bytes -> bytes -> Prop :=
| ds_nil : despaced [] []
| ds_space s t : despaced s t -> despaced (sp :: s) t
| ds_char c s t : c <> sp -> despaced s t -> despaced (c :: s) (c :: t).

(** "Block<number>" with the number of an existing block range. *)
Definition block_number (nblocks : nat) (m : bytes) : Prop :=
  exists s n, s <> [] /\ m = lit "Block" ++ s /\ atoi s = Some n /\ (0 <= n < Z.of_nat nblocks)%Z.

(** A SnapshotFormatMeanings list the check accepts: plain meanings, or plain meanings and a numbered block, after which
    anything goes. The flag says whether there was such a block. *)
Inductive meanings_ok (nblocks : nat) : list bytes -> bool -> Prop :=
| mo_end : meanings_ok nblocks [] false
| mo_plain m ms b : among m ["ScaleFactor"; "Snapshot"; "Block"]%string -> meanings_ok nblocks ms b ->
    meanings_ok nblocks (m :: ms) b
| mo_block m ms : block_number nblocks m -> meanings_ok nblocks (m :: ms) true.

Definition occurrences (c : ascii) (s : bytes) : nat := count_occ ascii_dec s c.

(** A legal length unit. *)
Definition length_unit (u : bytes) : Prop :=
  among u ["cMpc/h"; "ckpc/h"; "pMpc/h"; "pkpc/h"; "cMpc"; "ckpc"; "pMpc"; "pkpc"]%string.

(** [unset x] says that the float x still has the value -1 by which unset variables are recognised. *)
Record valid_config {F} (unset : F -> Prop) (dirOK : bytes -> Prop) (g : gconfig F) : Prop := {
  v_version : exists M m p, version_string (g_version g) (M, m, p) /\ (M <> 0)%Z /\ (M = 1 -> m <= 0 /\ p <= 4)%Z;
  v_snapshot : among (g_snapshotType g) ["gotetra"; "LGadget-2"; "Gadget-2"; "ARTIO"; "Bolshoi"; "BolshoiP"; "nil"]%string;
  v_halo : among (g_haloType g) ["Text"; "nil"]%string;
  v_tree : among (g_treeType g) ["consistent-trees"; "nil"]%string;
  v_memo : g_memoDir g <> [] /\ dirOK (g_memoDir g);
  (* halo catalogues *)
  v_halos : g_haloType g <> lit "nil" ->
    (g_haloDir g <> [] /\ dirOK (g_haloDir g)) /\ (g_treeDir g <> [] /\ dirOK (g_treeDir g)) /\
    (forall c, In c ["ID"; "X"; "Y"; "Z"; "M200m"]%string -> In (lit c) (g_valueNames g));
  v_columns : length (g_valueColumns g) = length (g_valueNames g) /\ length (g_valueComments g) = length (g_valueNames g);
  (* cosmology for nil snapshots: only checked if NilSnapOmegaL is set *)
  v_nil : g_snapshotType g = lit "nil" -> ~ unset (g_nilOmegaM g) /\
    (unset (g_nilOmegaL g) \/ (~ unset (g_nilH100 g) /\ ~ unset (g_nilTotalWidth g) /\ g_nilScaleFactors g <> []));
  v_endianness : among (g_endianness g) ["LittleEndian"; "BigEndian"; "SystemOrder"]%string;
  v_npart : (g_npartNum g = 1 \/ g_npartNum g = 2)%Z;
  (* snapshot files *)
  v_blocks : length (g_blockMins g) = length (g_blockMaxes g) /\
    forall i lo hi, nth_error (g_blockMins g) i = Some lo -> nth_error (g_blockMaxes g) i = Some hi -> (lo <= hi)%Z;
  v_snaps : (g_snapMin g <> -1 /\ g_snapMax g <> -1 /\ g_snapMin g <= g_snapMax g)%Z;
  v_format : occurrences "%"%char (g_snapshotFormat g) = length (g_meanings g) /\
    exists b, meanings_ok (length (g_blockMaxes g)) (g_meanings g) b /\
              (b = false -> among (g_logging g) ["nil"; "performance"; "debug"]%string);
}.

(** The units after reading: spaces removed if there are halo catalogues, the internal units otherwise; all other variables
    are as in the file. *)
Definition units_normalised {F} (g0 g : gconfig F) : Prop :=
  (exists p r m, g = with_units F g0 p r m) /\
  (g_haloType g0 = lit "nil" ->
     g_positionUnits g = lit "cMpc/h" /\ g_radiusUnits g = lit "cMpc/h" /\ g_massUnits g = lit "Msun/h") /\
  (g_haloType g0 <> lit "nil" ->
     despaced (g_positionUnits g0) (g_positionUnits g) /\ despaced (g_radiusUnits g0) (g_radiusUnits g) /\
     despaced (g_massUnits g0) (g_massUnits g)) /\
  length_unit (g_positionUnits g) /\ length_unit (g_radiusUnits g) /\ g_massUnits g = lit "Msun/h".
