(** * From the global config file to the reader of the snapshots: cmd/utils.go:8-45, shellfish.go:618-636 (no proofs in this file).

    float64s are their bit patterns, as in GadgetModel. *)
From Verif Require Import GoBase BytesModel OrderModel GadgetModel EnvModel GlobalModel.
Local Open Scope list_scope.

(** The order that NewLGadget2Buffer (io/lgadget2.go:203-213), NewGadget2Buffer (io/gadget2.go:338-348), NewBolshoiBuffer (io/bolshoi.go:49-58) and
    NewBolshoiPBuffer (io/bolshoiP.go:43-52) choose: the same switch four times. *)
Definition buffer_order (sys : order) (flag : bytes) : order :=
  if beq flag (lit "LittleEndian") then LE
  else if beq flag (lit "BigEndian") then BE
  else if beq flag (lit "SystemOrder") then (if is_sys_order sys LE then LE else BE)
  else LE.

(** The seven kinds of buffers with what they are given of the configuration. *)
Inductive reader :=
| RGotetra
| RLGadget2 (e : order) (npartNum : Z)
| RGadget2 (e : order) (c : Context)
| RARTIO
| RBolshoi (e : order)
| RBolshoiP (e : order)
| RNil (omegaM omegaL h100 : Z) (scales : list Z) (width : Z).

(** cmd/utils.go:11-22: the io.Context made from the configuration, the part that io/gadget2.go reads. *)
Definition gadget_context (g : gconfig Z) : Context :=
  {| c_dm := g_dmTypes g; c_single := g_singleMass g; c_mass_units := g_gadgetMass g; c_pos_units := g_gadgetPosition g |}.

(** cmd/utils.go:8-45 getVectorBuffer; None: the error return at the end. *)
Definition get_vector_buffer (sys : order) (g : gconfig Z) : option reader :=
  let t := g_snapshotType g in
  if beq t (lit "gotetra") then Some RGotetra
  else if beq t (lit "LGadget-2") then Some (RLGadget2 (buffer_order sys (g_endianness g)) (g_npartNum g))
  else if beq t (lit "Gadget-2") then Some (RGadget2 (buffer_order sys (g_endianness g)) (gadget_context g))
  else if beq t (lit "ARTIO") then Some RARTIO
  else if beq t (lit "Bolshoi") then Some (RBolshoi (buffer_order sys (g_endianness g)))
  else if beq t (lit "BolshoiP") then Some (RBolshoiP (buffer_order sys (g_endianness g)))
  else if beq t (lit "nil") then Some (RNil (g_nilOmegaM g) (g_nilOmegaL g) (g_nilH100 g) (g_nilScaleFactors g) (g_nilTotalWidth g))
  else None.

(** shellfish.go:618-636 initCatalogs: which catalogue is set up; None: the panic at the end. *)
Definition catalog_type (g : gconfig Z) : option snap_type :=
  let t := g_snapshotType g in
  if beq t (lit "gotetra") then Some Gotetra
  else if beq t (lit "LGadget-2") then Some LGadget2
  else if beq t (lit "Gadget-2") then Some Gadget2
  else if beq t (lit "ARTIO") then Some ARTIO
  else if beq t (lit "Bolshoi") then Some Bolshoi
  else if beq t (lit "BolshoiP") then Some BolshoiP
  else if beq t (lit "nil") then Some NilSnap
  else None.
