# Design

Formal model of laristra/flecsph (source in /repo, read as text only) in Coq 8.16.1.
First the conventions, then the trusted base with the modelled and unmodelled parts of the code, then for each property of properties.jsonl how it is modelled and proved, the theorems with their axioms, and the result. The property section is generated by `tools/gen_design.py`.

## Conventions

- `X_model.v` contains definitions of the code, each with a comment citing file and lines in /repo, and says where it simplifies. `X_spec.v`, `X_lemmas.v`, `X_proofs.v` and similar contain lemmas. `X_props.v` contains the theorems named after the properties, concrete cases as `Example`, and for small topics also the lemmas.
- A property that is false of the model has a theorem `..._refuted` of the form `exists ...`; a property proved in part has theorems `..._partial`. Both make its status "partial".
- Machine integers are `N`/`Z`/`nat` without wrap-around unless a property is about the wrap (C24, C50, C55: int, byte counts, parsed numbers), and then the wrap or the overflow is a distinct outcome.
- Floating-point numbers are modelled by the real numbers (stdlib `R`), by `Q`, or by an abstract arithmetic (`Lattice_model.v`, so that its counting theorems hold for doubles too). Rounding is modelled with Flocq's binary64 format where a property says so (C90, C91, C94, C98). NaN appears as `None` where a property depends on it (in C97 as a value).
- Undefined behaviour, failed assertions and exhausted loop fuel are `None`; a theorem that a result exists excludes them.
- MPI collectives are functions on lists indexed by rank. Point-to-point messages are FIFO channels with any interleaving of the ranks (`Comms_model.v`). One-sided timing, message size limits and buffering are not modelled.
- OpenMP regions are modelled by their sequential effect where they are reductions or independent loops; the passes over particles are also given with any interleaving (`Pass_model.v`).

## Trusted base

- The Coq 8.16.1 kernel (no native compilation; `vm_compute` is used).
- Axioms, all from the standard library, no others. `Print Assumptions` of each theorem lists one of these sets (written after the theorem below):
  - [0] none ("Closed under the global context")
  - [R1] `ClassicalDedekindReals.sig_forall_dec`
  - [R2] R1 and `FunctionalExtensionality.functional_extensionality_dep`
  - [R3] R2 and `ClassicalDedekindReals.sig_not_dec`
  - [R4] R3 and `Classical_Prop.classic`
- The reading of the source: the correspondence between /repo and the model rests on the citations.

### Parts of /repo that are modelled

| Source | Model |
|---|---|
| include/tree_topology/filling_curve.h | Key_model, Morton_model, Hilbert_model, FCell_model (in double precision) |
| include/tree_topology/tree_types.h (hcell, cofm, entity) | HCell_model, Cofm_model |
| include/tree_topology/hashtable.h | HashTable_model |
| include/tree_topology/tree_topology.h: build_tree, insertion, cofm update | BuildTree_model |
| ... find_in_radius, traversal_sph on one process | Search_model, GSearch_model (any tests), FSearch_model (in double precision) |
| ... traversal_fmm and include/physics/fmm.h, node.h | Fmm_model, Gravity_model |
| ... traversal_fmm on a distributed tree | DFmm_model |
| ... branch exchange of share_edge | Hypercube_model |
| ... share rounds of build_tree between ranks | Share_model |
| ... requests, replies, end of a traversal | Comms_model |
| ... traversal_sph on a distributed tree | Dist_model |
| include/tree_topology/tree_geometry.h | Geometry_model |
| include/tensor.h | Tensor_model (Vec: the vectors used by the physics models) |
| mpisph/psort.h, mpisph/tree_colorer.h (sorts), mpisph/utils.h (exchanges) | PSort_model, QSort_model, Exchange_model, Range_model |
| mpisph/bodies_system.h | Range_model, PSort_model, Driver_model, Pass_model |
| mpisph/io.h | IO_model, Snapshot_model |
| include/physics/body.h, kernels.h, viscosity.h, default_physics.h | Kernel_model, Sph_model, Timestep_model, Driver_model, Dt_model, Hlen_model, Check_model, FClock_model, FForce_model, FDens_model, FStep_model (in double precision) |
| include/physics/eos/eos.h (ideal, polytropic, white dwarf, piecewise polytropic) | Eos_model; ideal gas also in double precision, FEos_model |
| include/physics/eforce.h, density_profiles.h, wvt.h, boundary.h, analysis.h, integration.h | EForce_model, Profile_model, Wvt_model, Boundary_model, Analysis_model, Leapfrog_model |
| include/params.h | Params_model, ParamsDecl_model |
| include/lattice.h | Lattice_model |
| app/id_generators: sodtube, wtunnel, implosion, collapse, KH, RT, fluid, sedov, noh | IdGen_model, IdFlow_model, IdBlast_model |
| app/drivers/hydro/main_driver.cc, app/drivers/newtonian/main_driver.cc | Driver_model, Pass_model, Loop_model |
| app/drivers/wvt/main_driver.cc (its loop) | Loop_model |
| app/drivers/tree/main_driver.cc | TreeDriver_model |
| include/diagnostic.h | Diag_model |
| include/space_vector.h | Vec, SVec_model |

### Parts that are not modelled

- include/log.h (logging), command line handling in the main.cc files, unit tests.
- include/tree_topology/tree_utils.h (drawing the tree) and mpisph/tree_colorer.h mpi_branches_exchange variants that no driver calls.
- HDF5, the file system and MPI-IO themselves: their effect on arrays and on a map of path names is assumed.
- The FleCSI runtime and its task registration.
- The generators in app/id_generators not listed above, the attributes and screen output of those that are, their icosahedral and random lattices; app/tools, except for what a property names.
- Rounding errors except in C90, C91, C94, C98, C109, C110, C111 and part of C108, timing, memory consumption.

## Properties

@@PROPERTIES@@
