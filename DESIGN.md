# Formal model of lanl/Fierro (apps/multiphysics, apps/micromechanics) in Rocq

## Layout

* `properties.jsonl` – the properties, in terms of the API and its effects.
* `rocq/theories/Base*.v` – arrays, loops, sums, real-number helpers (no claims about Fierro).
* `rocq/theories/<Area>Model.v` – the model, function by function.  Every definition cites
  file and lines in `/repo` and says where it simplifies.  No proofs.
* `rocq/theories/<Area>Spec.v` – small independent specifications (where the property is
  not directly readable).
* `rocq/theories/<Area>Proofs.v` (`…Flow`, `…More`, `…Plane`, `…Grid`) – lemmas.
* `rocq/theories/<Area>Examples.v` – concrete meshes and layouts used to show that
  hypotheses are met and as witnesses of refutations.
* `rocq/theories/<Area>Props.v` – the property theorems, each followed by
  `Print Assumptions`, plus `Example`s that meet the hypotheses.
* `MANIFEST.json` – claims; `seeded/LOG.jsonl` – mutation log.

Names: `Cnn_…` proves (part of) property Cnn; `…_partial` proves it under a restriction
named in the statement; `…_refuted` proves that a clause is false of the code, with a witness.

Paths below are relative to `/repo/apps/multiphysics/src/`, those of the crystal plasticity solver to `/repo/apps/micromechanics/EVPFFT/src/`.

## Trusted base

1. **Coq 8.16.1's kernel** (and `coqchk` for re-checking).  No plugin, no kernel check switched off,
   no `Admitted`, no axiom of our own.
2. **Axioms of the standard library** that `Print Assumptions` lists:
   * `N` = `ClassicalDedekindReals.sig_not_dec` and `D` = `ClassicalDedekindReals.sig_forall_dec`
     (the real numbers),
   * `F` = `FunctionalExtensionality.functional_extensionality_dep` (used by the real numbers),
   * `C` = `Classical_Prop.classic` (used by `Rtrigo`, `Ranalysis`, `RiemannInt`, and once directly in C61).
   The list per theorem is at the end of this file.
3. **The model**: that the definitions in `*Model.v` say what the cited C++ lines do.  This is by reading; nothing was run.
   The modelling decisions of the next section are part of this.
4. **The specifications** in `*Spec.v` and in the statements.

## Global modelling decisions

* **Numbers.** `double` is modelled by stdlib `R` (exact arithmetic; rounding, overflow, NaN
  and infinities are *not* modelled).  Division by zero, square roots of negative
  numbers etc. are excluded by hypotheses or made a separate outcome, never silently given
  Coq's default.  `size_t`/`int` are `nat`/`Z` without wrap-around unless said otherwise.
* **Arrays.** Tables where out-of-range access is the point (mesh builders, readers, parsers,
  node lists, ragged storage, fills, thermal and level-set fields) are checked arrays: an access
  out of range is `None` = undefined behaviour.  Physics fields of the hydro solver are functions
  from ids; the layout predicates state the ranges and are proved of the set-up (C22, C39, C45).
* **Loops.** `for` loops are folds over the same iteration space.  `FOR_ALL` bodies writing
  disjoint locations are modelled pointwise or as a fold over an *arbitrary permutation* of the
  iteration space; where two iterations may touch one location always the latter.
* **Reductions.** `FOR_REDUCE_MIN` starts from Kokkos' identity (the largest double),
  modelled as `option`-valued minimum (`None` = empty range) or `fmin` with that start.
* **Files** are lists of lines of characters (readers) or a map from paths to structured contents (writers).
* **Runs** are folds over cycles with an oracle for what the physics returns, so that the time-control
  theorems hold for every physics; the physics theorems hold for every time step.

## What is modelled, and what is not

Modelled (file: functions; Model file):

* `common/include/mesh_io.hpp`: `get_id`, `build_2d_box`, `build_2d_polar`, `build_3d_box`, `build_3d_HexN_box` (MeshBuildModel);
  `PointIndexFromIJK`, node-order conversion of the Ensight/VTK/VTU/Abaqus readers and the VTU writer (MeshIndexModel);
  `build_material_elem_node_lists` (PartModel); `write_vtk`, `write_vtu` (naming, contents as opaque data), `write_vtm`, `write_pvd` (VtkModel);
  the field selection and element averages of `write_vtk`, `concatenate_elem_fields`, `concatenate_nodal_fields` (FieldModel); `max_Eigen3D` (EigenModel).
* FOR_ALL and FOR_REDUCE_MIN/SUM of MATAR/Kokkos as interleavings of single accesses and as reduction trees, with the mass, force, velocity, energy, position and node painting loops of the 3D solver as threads (ParModel).
* `common/src/geometry_new.cpp`: all functions (GeomModel, BdyModel).
* `common/include/ref_quadrature.hpp` (all tables, digit for digit) and `ref_elem.hpp` (`init` and the basis functions; RefTables, RefModel). No program of the repository includes them yet. `ref_surf_elem.hpp` uses undeclared names, cannot be compiled and is not modelled;
* LS-EVPFFT (large strain): `defgrad_dcmp.cpp`, `matrix_exp.cpp`, `determinant33.cpp`, `update_defgradp.cpp`, `update_defgrad.cpp`, `update_defgrade.cpp`, `update_el_stiff.cpp`, `Cauchy_to_PK1.cpp`, `initialize_velgrad.cpp`, `init_defgrad` and `evolve` of `evpfft.cpp`, `step_update`, and the positions of `write_micro_state.cpp` (LsModel, LsRunModel). The Fourier correction, and the stresses and rates of `evpal`, are arbitrary in every pass. `get_smacro` is the text of EVPFFT;
* `apps/micromechanics/LS-EVPFFT/src/evpal.cpp` (the iteration at a point),
  `calc_c066mod.cpp`, `calc_Goperr0.cpp`, the isotropic branch of `harden.cpp` and of
  `data_crystal.cpp`, `init_c0_s0` and `deinit_c0_s0` of `evpfft.cpp` (`LsFlowModel`).
  Not modelled: the mean residuals `evpal` sums up over the grid, and the branch for
  gas points, which sets their stress and plastic rate to zero.
* `Solvers/SGH_solver_rz/src/time_integration_rz.cpp` (`get_timestep_rz`) and the loop
  variables and outputs of `sgh_execute_rz.cpp` (`RzTimeModel`).
* EVPFFT `write_micro_state.cpp` (`write_micro_state_pvtu`; `calculate_eel`,
  `calc_IPF_colors`), `write_texture.cpp`, `manager_mpi_io.h`, the selections of
  `hdf5_io_functions.h` (`EvpOutModel`, `EvpPlotModel`). Numbers in the appended data are
  values with a width in bytes, not bit patterns.
* LSNP-EVPFFT `calc_vel_boundary_lin_el.cpp`, `calc_velvert.cpp`, `update_xvert.cpp`,
  `calc_wfhat.cpp`, `calc_eigenvelgradref.cpp`, `mod_frequency.cpp`, `calc_velocity.cpp`
  (with `ibc == 1`), `calc_vel_bc_error.cpp`, `calc_IC0a_inv.cpp`, the frame branch of
  `evpal.cpp`, the outer loop of `evpfft.cpp`, the choice of points in `update_grid.cpp`
  (`NpModel`). The inner iteration is an arbitrary function of the frame stiffness and the
  pass; the transforms are the exact discrete transforms on reals.
* `material_models/strength/host_ann_strength.hpp` (`AnnModel`); float as real numbers.
* `legacy/Fierro_V0/src/Voxelizer/src/stl-to-voxelvtk.cpp` (`VoxModel`) except the STL
  reader and the text of the VTK file; numbers are real, with the infinities of a division by
  zero kept apart.
* `legacy/Fierro_V0/src/Parallel-Solvers`: `dynamic_checkpoint.h`, and the checkpoints in the
  time loops of `FEA_Module_SGH.cpp` and `sgh_optimization.cpp` (`CkptModel`).  One step of the
  solver is any function of the time step, the state and what is carried beside it.
* `legacy/Fierro_V0/src/Parallel-Solvers`: `node_combination.h`, `node_combination.cpp` and
  `Get_Boundary_Patches` of `Solver.cpp` (`PatchModel`).
* `legacy/single-node/src/Explicit-Lagrange/src/DG_solver`: `limit_density.cpp`,
  `limit_specific_volume.cpp`, `limit_energy.cpp` and `limit_vel.cpp`, one element, real arithmetic
  (`LimModel`); the unused shock detector and kinetic-energy approach are left out.
* `legacy/Fierro_V0/src/Mesh-Builder`: `MeshBuilder.cpp` up to `build_mesh` and
  `MeshBuilderInput.h`, real arithmetic and unbounded counts (`StdMeshModel`); the writers of
  `MeshIO` and the reading of the file are not modelled there.
* `common/include/table.hpp`, `string_utils.hpp`, `additive_data.hpp`, `state.hpp` (storage maps, required-state checks, allocation lists).
* `common/src/region_fill.cpp`: `fill_regions`, `append_fills_in_elem`, `fill_geometric_region`, `user_voxel_init`, `paint_*`, `get_region_scalar` (FillModel);
  `simulation_setup`, `material_state_setup` (SetupModel); `calc_corner_mass`, `calc_node_mass` (SghModel).
* `Solvers/SGH_solver_3D`: `execute`, `get_timestep`, `rk_init`, `get_velgrad`, `get_divergence`, `get_force`, `update_velocity`, `update_energy`,
  `update_position`, `update_state`, boundary conditions (TimeModel, SghModel, MarsModel, BdyModel).
* `Solvers/SGH_solver_rz`: set-up masses, `execute`, `get_velgrad_rz`, `get_divergence_rz`, `get_force_rz`, `update_velocity_rz`, `update_energy_rz`,
  `update_position_rz`, `update_state_rz`, extensive and areal node masses, tallies (RzModel; boundary conditions and material models as parameters).
* `Solvers/SGTM_solver_3D`: `execute`, `get_heat_flux`, `moving_flux`, `update_temperature`, `boundary_*`, `get_timestep`, `update_state` (ThermModel, ThermTimeModel).
* `Solvers/level_set_solver`: all functions (LevelModel, LevelTimeModel).
* `Solvers/SGH_solver_3D/src/contact.cpp`: `sort`, `find_penetrating_nodes`, `penetration_check`, `penetration_sweep`, `isoparametric_inverse`,
  `frictionless_increment`, `distribute_frictionless_force`, `force_resolution`, shape functions and normals (ContModel). Not modelled: `capture_box`,
  `find_nodes`, `get_contact_point`, `contact_check`, `get_edge_pair` (nothing calls them), `remove_pairs` (its marks are rebuilt by the next sweep
  before anything reads them).
* `material_models`: gamma-law, linear elastic, void EOS; basic erosion; hypo-elastic plasticity (3D and RZ, PlastModel); MARS and directional MARS (3D and RZ); Tipton equilibration; tabular thermal properties.
* `boundary_conditions`: all velocity, stress and temperature models; fracture and contact through FracModel and ContModel.
* `input/read_abaqus_files.cpp`; the parts of `parse_regions.cpp`, `parse_material_inputs.cpp`, `parse_bdy_conds_inputs.cpp` the properties need.
* `driver.cpp`: `setup_solver_vars`.
* `input/Yaml.cpp`: `Parse` (lines, post-processing, node building), the node operations, copying, `Serialize` (YamlModel). Not modelled: streams and
  file names (a text is a list of characters), the texts of exception messages, `LineFolding` beyond lines that need no folding.
* `input/parse_tools.cpp` `validate_inputs`, with the iterators of `Yaml.cpp`; `parse_dynamic_inputs.cpp`, `parse_solver_inputs.cpp`, `parse_mesh_inputs.cpp`,
  `parse_output_options.cpp`, `parse_bdy_conds_inputs.cpp`; the identifiers of `parse_material_inputs.cpp`, its multimaterial options and the solver of each region (InputModel).
  Conversion of a text to a floating point number is any function. Not modelled: screen output, the functions the enums select, the rest of the materials and regions.
* EVPFFT (spectral crystal plasticity solver): `math_functions.h` `invert_matrix`, `PowIntExpo` (LinModel); `chg_basis.cpp`, `voigt.cpp`, `data_crystal_elast.cpp`,
  the tensors of `data_grain.cpp`, `euler.cpp`, `orient.cpp`, `update_orient.cpp`, the updates of `step.cpp` and `initialize_disgrad.cpp` at a point (EvpModel), the local iteration of `evpal.cpp`, `harden.cpp`, `update_schmid.cpp`, the geometry, modes and coefficients of `data_crystal.cpp`, `inverse_the_greens.cpp`, the frequencies of `init_xk_gb`, `get_smacro.cpp` and the checks of `vpsc_input.cpp` (EvpFlowModel), the load step (`evolve` of `evpfft.cpp`, `step.cpp`, `vm.cpp`) and the calls from Fierro (`main.cpp` solve, `FierroEVPFFTLink.cpp`) (EvpStepModel), and the correction of the whole field with the transforms written as sums (EvpFftModel; heFFTe itself is not modelled). Arrays are functions of their 1-based indices.

Not modelled: MATAR/Kokkos (taken to be arrays and loops as above), the `Elements`/swage submodule (empty in this checkout; its
corner connectivity is modelled from `legacy/…/mesh.h`), `TLQS_solver_3D` (its `execute` returns at once),
user-defined and host strength and EOS models,
XML text of the graphics files, MPI, the FFT library, of LS-EVPFFT, LS-EVPFFT-J2 and LSNP-EVPFFT
and of `legacy` whatever is not in the list above, Python GUI.

## Plan per property

| id | model | proof |
|---|---|---|
| C01 | `get_timestep`, min over materials, RK-independent part of the cycle loop | case analysis on min/max |
| C02 | whole cycle loop with an oracle giving per-cycle element sizes/sound speeds | invariant by induction on cycles; Archimedean bound |
| C03 | `get_timestep` reduction | induction over elements |
| C04 | 28-step index recurrence | finite computation lifted to all coordinates |
| C05 | cycle loop emitting the list of writes | induction on cycles; refutation of the cycle_stop write |
| C06 | fold over the solver list | induction; refutations for the bounds |
| C07,C08,C44 | builders as checked-array loops | loop invariants; div/mod arithmetic; C44 refuted by witnesses |
| C09 | `PointIndexFromIJK` on nat | range + injectivity by region case analysis, pigeonhole |
| C10 | reader/writer permutations | from C09; refutation of VTK conformance |
| C11 | permutation tables | finite; volume identities over R |
| C12–C14 | polynomials of geometry_new.cpp | `ring`/`field`, integrals by antiderivative |
| C15–C17 | element/corner/node sums over arbitrary topology | double-sum exchange, `ring` |
| C18,C19 | velocity gradient; RK loop | `field`; induction on stages |
| C20,C21,C41,C49 | EOS, erosion, update_state | real analysis; induction over history |
| C22–C26,C52,C53 | region fills and set-up on ragged checked arrays | loop invariants; refutations |
| C27,C47,C48 | table search, reader of table files, tool path | induction over rows/lines |
| C28,C29,C50 | tagging, BC loops over permutations | induction, refutation for reflected BC |
| C30,C51 | Tipton | bounds; sum identity |
| C31–C33,C54,C55,C57 | thermal stage on checked arrays | `ring`, sums, refutations |
| C56 | thermal cycle loop | simulation by the hydro loop of C01–C05 |
| C34 | level-set stage on checked arrays | convexity; exact solutions on grids |
| C58 | level-set cycle loop | invariants on cycles; refutations |
| C35 | strings over `ascii` lists | induction |
| C36 | compaction of a material's mesh under arbitrary schedules | ranks; loop invariants |
| C37,C60,C61 | writer as a function on a file system | induction over outputs; injectivity of file names |
| C38,C39 | state.hpp | induction, div/mod; refutations |
| C40 | multi-material force loop | refutation plus positive form |
| C42 | max_Eigen3D | trigonometric solution of the cubic; refutation |
| C43 | loops as threads over shared memory, one access at a time; reductions as trees | race freedom implies one outcome (invariant over all interleavings); footprints of every loop; refutation for painting |
| C45 | corner connectivity from the legacy mesh | counting |
| C46 | MARS kernels | sums of squares; refutation for RZ |
| C62,C63 | set-up and areal masses of the RZ solver | corner-area identities (`ring`), fold invariants; refutations |
| C64–C69 | RZ stage, step and run | frame lemmas per stage; double-sum exchange with radius weights; induction on cycles; refutations |
| C74–C81 | `FracModel` (all of `fracture.cpp`, `reorientation_kinematics.hpp`) | loop invariants for the pair table and the face matching; runs over arbitrary openings; telescoping of traction increments; bilinear face algebra; refutations on concrete meshes and histories |
| C82–C88 | `ContModel` (contact: sort, search, pairing, inverse map, increments, force resolution) | counting sort by induction over any thread order; integer parts for cells; geometry of faces by `field`; induction over global iterations; exact Newton steps for the head-on hit; refutations on concrete scenes |
| C70–C73 | `PlastModel` (3D and RZ `calc_stress`) | tensor algebra; generic invariant of material stresses through stages, steps, runs; frame change as conjugation; refutations |
| C89–C95 | `YamlModel` | documents as trees with a layout (YamlSpec): induction over documents for each pass; fuel shown irrelevant; sorted association lists; refutations by computation |
| C96–C101 | `InputModel` | each option is a projection changed by one word only: induction over the words of a section without repetitions; identifiers by an invariant on the marks; lists per solver by induction over the conditions; refutations by reading texts with `parse` |
| C102, C103 | `LinModel` (Gauss-Jordan on row-major memory, repeated squaring) | invariant: scratch times the original is the reduced matrix; pivots by leading blocks; induction on exponents |
| C104, C105 | `EvpModel` | orthonormal basis; sums over indices; positivity through the change of axes |
| C106, C107 | `EvpModel` (`euler_1`, `euler_2`, `orient`, `update_orient`) | trigonometric identities; Rodrigues form of the step; induction over histories |
| C108, C109 | `EvpFlowModel` (`resolved`, `shear_rate`, `edotp6`, `dedotp66`, `read_modes`), `EvpModel` (`make_system`, `update_schmid`) | orthonormal tensor basis; limits of piecewise powers glued at zero; induction over the systems |
| C110 | `EvpFlowModel` (`harden`, `voce_factor`, `reorder`, `hard_coef`) | telescoping sum over the history; induction over the file's modes |
| C111 | `EvpFlowModel` (`acoustic`, `green`, `inverse_the_greens`) | the acoustic matrix of a positive definite medium is positive definite, so the inversion is exact |
| C112 | `EvpFlowModel` (`newton_step`, `evpal_point`) | residual split into an affine part and the flow; regular matrix; induction over the iterations |
| C113 | `EvpStepModel` (`evolve`, `solve`, `mean_stress`, `epav`), any local solver | invariant of the iteration on the sum of the field; induction over the steps |
| C114 | `EvpFlowModel` (`check_iudot`, `check_mixed_bc`, `mixed_correction`) | case analysis on the flags; the compliance restricted to the prescribed components is positive definite |
| C115 | `vm`, `svm_of`, `evmp` | algebra of the deviator; Cauchy-Schwarz |
| C116 | `EvpStepModel` (`link_solve`, `link_run`) | induction over the calls; the inversion theorem of C104 for the tangent |
| C117 | `EvpFftModel` (`fft_re`, `fft_im`, `ifft`, `field_correction`, `spectral_work`) | orthogonality of the waves by telescoping; conjugate coefficients; C111 at each frequency |
| C118 | `RefModel` (`lobatto_nodes` ..., `init`), tables in `RefTables` | moments of each rule by fixed-point arithmetic with an error bound, extended to all polynomials; product rule for the cube |
| C119 | `RefModel` (`get_basis`, `partial_*_basis`, `tabulate_*`) | Lagrange polynomials over distinct points reproduce polynomials; derivative of a product |
| C120 | `RefModel` (`init`) | every loop writes each entry once, so the order does not matter; the entries by invariants |
| C121 | `LsModel` (`polar_next`, `polar_loop`, `defgrad_dcmp`) | invariant of the iteration: acute, same polar factor; the distance to it halves |
| C122 | `LsModel` (`update_defgrad`, `update_defgradp`, `update_defgrade_at`), `LsRunModel` (`evolve`, `run`) | invariant over steps; determinant of the cut exponential by Cayley-Hamilton |
| C123 | `LsRunModel` (`one_pass`, `evolve`, `run`) | invariant over passes: mean plus pending correction; invariant over steps |
| C124 | `LsRunModel` (`update_xnode`, `uf`, `xintp`) | closed form of the nodes by induction over steps |
| C125 | `LsModel` (`update_defgrade_at`, `turned_stiffness`) | from the polar decomposition (C121) |
| C126 | `LsFlowModel` (`law_flow`, `evaluate`, `cuts`, `ls_step`, `ls_loop`, `ls_evpal`) | derivative of the residual, the rate form of the law in components of the basis, monotone flow for uniqueness, induction on the halvings and on the iterations |
| C127 | `LsFlowModel` (`j2_flow`, `harden_j2`, `read_j2`) | the norm of the first five components is that of the deviator; induction on the history |
| C128 | `LsFlowModel` (`c0mod`, `Goperr0mod`, `c066mod`, `calc_Goperr0`, `init_c0_s0`) | pull-back identities, the energy of `c0mod`, the transform of a stress at a single point |
| C129 | `RzTimeModel` (`rz_get_timestep`, `rz_cycle_body`, `rz_time_run`) | refinement: a quadrilateral raised by its shortest distance gives a 3D element with the same step, so the run is a run of the 3D controller |
| C130 | `EvpOutModel` (`write_vtu`, `pvtu_arrays`, `pvtu_pieces`, `xintp`) | a reader of the file is specified (`EvpOutSpec`); induction over blocks for offsets, numbering of voxels as a bijection |
| C131 | `EvpOutModel` (`write_binary`, `read_binary`, `rank_writes`, `h5_filespace`, `write_ascii`, `write_texture`) | induction over ranks: what is written where; selections as lists of places |
| C132 | `EvpPlotModel` (`plotted`, `calculate_eel`, `ipf_direction`, `rgb`, `calc_IPF_colors`, `ls_aa`) | compliance and stiffness as inverses on symmetric tensors, ranges of the trigonometric functions, explicit witness for degrees used as radians |
| C133 | `NpModel` (`loaded`, `corner`, `corners_after`, `shape`, `apply_boundary`) | trilinear interpolation reproduces affine fields; induction over load steps; integer case analysis for the surface test |
| C134 | `NpModel` (`weight`, `given`, `fill_inside`) | the convolution theorem for the discrete transform (`NpFft`), then sums with non-negative weights |
| C135 | `NpModel` (`np_gradient`, `np_velocity`, `np_mean`) | shifts as phase factors, product identities for the rotated frequencies, lower bound on the smallest non-zero frequency |
| C136 | `NpModel` (`outer_loop`, `outer_steps`, `surface_error`, `frame_update`, `node_source`, `node_neighbours`) | induction over passes and steps; linear algebra in the six-component basis |
| C137 | `AnnModel` (`forward_layer`, `ann_forward`, `ann_calc_stress`, `init_layers`) | induction over layers against the usual definition of a network (`AnnSpec.network`) |
| C138 | `VoxModel` (`ray`, `main_function`, `voxels`, `cell_data`) | barycentric weights for a facet, correctness of the sort, parity of the crossings below a point, induction over the listed rays |
| C139 | `CkptModel` (`record`, `forward`, `checkpoint_solve`, `adjoint`) | invariant of the sorted set, its vectors and the spare ones, kept by every recorded step; induction over cycles, forward, again and backward |
| C140 | `PatchModel` (`patch_ltb`, `set_insert`, `mark`, `get_boundary_patches`) | uniqueness of the sorted list, invariant of the set and the flags over the sides seen so far, counting of equal sides for the processes |
| C141 | `LimModel` (`limit_field`, `limit_volume`, `limit_vel`) | the coefficient is at most that of each point, which is at most the ratio; linearity for the mean; witnesses for the two false parts |
| C142 | `StdMeshModel` (`grid_of`, `build_points`, `build_elems`, `build_mesh`) | the nested loops list the numbers in order; uniqueness of quotient and remainder for sharing; periodicity of sine and cosine for the closing row |
| C59 | output field accumulation loops | sums; refutations |

## Findings: clauses false of the code

Each is proved (`…_refuted` or named below) from the model, with a concrete witness.

* **C05** the state reached at the cycle limit is not written; a solver that starts after time 0 writes at every cycle until it catches up; more than 20000 outputs overrun `graphics_times`.
* **C06** user end times that are not sorted or exceed `time_final` give windows that run backwards or beyond the end.
* **C10** high-order VTU files are not in VTK Lagrange order for any order ≥ 2.
* **C11** the 2D reader swaps nodes 2 and 3 of quads as well: every rectangle gets area zero.
* **C13** (`C13_inverted_cell_hidden`) the 1e-14 floor hides inverted cells.
* **C17, C40** an eroded material sets the corner force of the whole element to zero and removes what earlier materials added.
* **C23, C24** the search for an existing slot compares with the material of the *fill that has the slot's number*; refilling a material in a full element aborts; two fills of one material give two slots; fractions can sum to more than one.
* **C26** the last layer of voxels is never filled, points below the box can be filled, one voxel in a direction is undefined, the last value alone on a line is not read.
* **C28** on 2D meshes z planes and spheres read a coordinate that is never set.
* **C29** the reflected condition with direction −x doubles the velocity instead of removing it; oblique directions are not projected.
* **C30** the sum of volume fractions drifts unless it is one.
* **C32** the heat of an element is that of its last material; heat capacities come from material 0; state is indexed by element id (out of bounds unless material 0 fills the mesh).
* **C33** the patch area is wrong for plane patches with a re-entrant corner.
* **C34** a uniform level set changes at free boundaries; the stored nodal gradient is reversed; in shared elements the last material overwrites; the curvature speed only enters the time step.
* **C37** the index lists mat0…mat(n−1) for n files written: wrong as soon as an empty material precedes another one.
* **C38** the required-state check is not per region and is wrong for lists with repetitions; extensive energy is not allocated when specific energy was requested before.
* **C39, C53** the fills index gauss points by `elem + gauss_lid`, which collides for more than one point per element.
* **C41** for coupled EOS in mixed elements the volume fraction is left out of the density.
* **C44** the polar mesh check reads the axial coordinate.
* **C46** the RZ MARS kernels depend on the sense of rotation.
* **C47** there is one table per property for all materials; the last material read wins.
* **C52** radial level set, origin of painted volume fractions, spherical velocity in 2D, interface nodes.
* **C54** the heat source is at the origin during the first cycle.
* **C58** the CFL limit uses 1.5+F for negative F; without an evolving material the end is overshot; with a non-evolving one the step never grows; output lateness accumulates.
* **C42** the routine for the largest eigenvalue returns 0 for every tensor with zero determinant (it tests the determinant before the cubic), so a uniaxial stretch rate counts as no stretch, and it divides zero by zero for every non-zero multiple of the unit tensor. Nothing else in the multiphysics application calls it.
* **C43** the fill loop over elements paints velocities and temperatures on shared nodes without synchronisation: where two regions with different values meet at a node, the schedule decides which one it keeps. `x += v` in the loops is a plain read and write, so a material that listed an element twice would lose updates; the fill code never lists one twice.
* **C59** a field named twice in `elem_field_outputs` gives a first column of zeros and a last column with the multiple of the value, and naming the mass twice halves the specific internal energy shown; `node_field_outputs: coords` on 3D meshes writes the third component to the node whose number is the column number, and so to no other node.
* **C62** `calc_corner_mass_rz` leaves out the volume fraction: nodes of mixed elements get the mass of each material as if it filled the element.
* **C63** a node on the axis has no mass per radian; when it moves off the axis its areal mass becomes 0 and its next acceleration divides by zero. The same holds for interior nodes on the axis and at radius exactly `tiny`.
* **C65** a node that runs into the axis is stopped there with its mass per radian, velocity and kinetic energy; the next step adds energy (9 units in the witness).
* **C66** RZ viscosity forces sum to zero without the radius weight that turns them into forces on rings: it moves the centre of mass along the axis and can do positive work.
* **C67** the hoop rate of uniform radial stretching is right only where the mean of the node radii is the centroid radius.
* **C69** in RZ, state-based strength resets the density to mass over the whole element volume.
* **C71** the 3D plastic update adds the Jaumann rate over a finite step: a rigid rotation raises the von Mises stress (5 times its
  square in one step of one radian). The absolute `fuzz` 1e-16 under the root scales down stresses below yield when the yield
  strength is of order 1e-8 or less in the unit used.
* **C75** an element records at most one face per cohesive pair, so where an interface turns a corner one of the element's two
  faces is lost, with its share of the area (`C75_complete_refuted`).
* **C76/C78** the predicted opening of a rotating open pair uses the start-of-step normal (`n(t+dt)` is computed from the same
  coordinates as `n(t)`): damage grows by a second-order term and tangential traction by a first-order term, E s dtheta / u_t*,
  that does not vanish with the step size (`C76_spin_refuted`, `C78_spin_drift`).
* **C77** the effective opening squares the normal opening, so pressing the faces into each other damages the zone.
* **C78** only the last stage commits, and it sees coordinates already moved by half a step; the opening of the first half step is
  never counted.  After failure the increments are zero, so the wrong residue stays for ever (`C78_failed_refuted`, `C78_frozen`).
  The Prony sums use the already advanced branch stresses (`delta_internal_vars`) where the increment needs the old ones (`C78_prony_refuted`).
* **C79** different normal and tangential stiffness give a torque; **C80** and make the reorientation test depend on the rotation.
* **C81** more than ten Prony terms are dropped to zero, more than twelve read outside the staging buffer.
* **C83** the list of buckets met by a patch's box has 64^3 entries but the grid can have 65^3 cells: one block whose top face runs corner to corner overruns it.
* **C84** the penetration test allows 0.01 in the user's unit of length whatever the size of the elements: a node four widths beside a cube of side 1/1000 is recorded as penetrating it.
* **C85** when an element has no eligible patch its slot repeats the selection of the element before, so a node can be paired twice with one patch.
* **C87** releasing a pair subtracts the carried force along the present normal; if the normal turned since it was applied, a force remains that belongs to no pair.
* Contact, seen in the code and modelled as it is, without a theorem: `frictionless_increment` puts the first guess in the solution vector but not in the
  pair's variable, so iteration 0 evaluates the gap with the old value; the eta column of its matrix uses the xi derivative of the normal; the mixed
  derivative of the shape functions has the signs of the xi derivative; the direction to the node's material is divided by its squared length.
* **C72/C73** the RZ plastic update uses `G*D(0,1)` where Hooke's law has `2G*D(0,1)`; its rotation terms multiply two
  stresses, so they depend on the unit of stress and create a trace.
* **C91** looking up a missing key adds it; looking up a key on a text deletes the text; `Erase(index)` leaves a gap, so loops over `Size()` miss entries.
* **C92** `Serialize` does not escape double quotes inside values, and writes empty values and empty sequences as nothing: read back they are rejected or become a line feed.
* **C93** the copy of an empty sequence or mapping has no type.
* **C94** `PushFront` never returns on a non-empty sequence, nor `Insert` inside one; at the end `Insert` drops the node, at the front it overwrites entry 1.
* **C95** a field indented below a one-line value becomes part of that value and is missing; a stray line is glued to the value before; text before `---` is dropped;
  a repeated key with sequences appends; `#` inside a word cuts the value; `- - a` is the text `- a`; an absent value is a line feed; lists at the
  indentation of their key, empty quoted texts, `~`, apostrophes and two `#` in quotes are refused; an absent value before a sibling is refused when the indentation is not two.
* **C96** iterators of a node that is no list or mapping are never equal, so `validate_inputs` loops for ever when a section is missing or is a text; numbers that are left out
  leave an uninitialised variable; `cycle_stop: 2e6` is 2.
* **C97** `id: first` is 0; **C98** `exit(0)` on inconsistent options; `origin: 10,20,30` is (0, 20, 3); `[1,2,3,4]` is (1, 2, 0); `[7]` reads past the array.
* **C99** `[coords, vel]` is accepted and writes nothing; **C100** a misspelled temperature model is accepted and sets none.
* **C101** regions: see the manifest; `geo_equilibration_model` sets the equilibration model of the materials, and nothing sets the geometric one.
* **C102** `invert_matrix` does not exchange rows: a regular matrix with a zero pivot comes back half reduced; the flag is 0 whatever happens.
* **C106** `euler` writes the angles of the pole for every orientation with |a33| >= 0.9999, up to 0.8 degrees off.
* **C107** `orient` drops increments below 1e-6 rad, so a slow spin never turns the crystal; `update_orient` adds the imposed spin to a velocity gradient that already holds it, so a crystal in a rigidly rotating specimen turns twice as fast.
* **C109** `data_crystal` tests the cosine between normal and direction without its absolute value, so an obtuse angle passes (even direction = -normal); modes asked for in another order than the file's are skipped, and later modes with them.
* **C110** Voce's law is skipped altogether where thet0 or tau1 is below 1e-4 of tau0, although the linear slope is not small; latent coefficients are looked up by mode number in a row stored by place.
* **C112** the end test compares a squared stress difference with a stress: in MPa and Pa the same iteration stops at different relative accuracies.
* **C113** `scauav1` divides by the weight of the first phase on each process before the sum over processes; the last `ddisgradmacro` of a step is added to the reported strain but to no point.
* **C114** `idsim` is read from the upper triangle while the correction is written symmetrically: iudot(1,2) = 1, iudot(2,1) = 0 corrects the imposed component.
* **C116** a call with a velocity gradient below 1e-16 returns before the time is accumulated; the threshold is on the von Mises strain, blind to volume; `disgradmacro` predicts with the old load; `dedotp66` is uninitialised at gas points. Seen but not stated as theorems: `udotAcc` is never set to zero before its first `+=` (the call is commented out; the model takes its first value as a parameter), and the link calls the solver with the full dt in every Runge-Kutta stage.
* **C117** at Nyquist's frequencies of grids with an even number of points the correction is -s0:stress, which is not the gradient of a displacement.
* **C118** the 12-point Lobatto table has 0.632876153031869... for 0.632876153031860... in two points; tables end at 20 (Lobatto) and 19 (Legendre) points, beyond which all points and weights stay zero without a message.
* **C119** `dg_dof_positions` of the reference element is allocated and never filled.
* **C120** order zero copies two points into arrays of one entry.
* **C121** `defgrad_dcmp` of a rotation by a right angle returns a singular "rotation": `invert_matrix` leaves a matrix with a zero pivot as it is.
* **C122** `matrix_exp` stops after the third power: flow on several slip systems and rigid spins change volumes in the fourth order.
* **C123** LS-EVPFFT sets the velocity gradient to the prescribed one in the first step only (`imicro == 1`): a change takes effect one step late; a finite element code that calls it with a new velocity gradient each time is always one call behind.
* **C124** `delt_dual(ii) = delt(3)` multiplies positions that already contain the cell size; the positions use the local numbers of a process and two different integrals of the mean deformation.
* Large-strain solver, phases without slip systems: the stress compared with the strength
  is the norm of the deviator, not von Mises's stress, sqrt(3/2) times it
  (`evpal.cpp:220-224`; C127_yield_refuted). A stress without deviator gives 0/0
  (`evpal.cpp:230-240`; C127_zero_refuted, C126_pressure_refuted). The strength and
  the hardening moduli of the file are not multiplied by `stress_scale`, unlike the
  elastic constants and the slip systems (`data_crystal.cpp:41-49`, `93-98`;
  C127_units_refuted).
* Large-strain solver: the reference stiffness carried to the deformed specimen is
  singular where the material is turned by a right angle (`calc_c066mod.cpp:30-43`;
  C128_turned_refuted).
* Large-strain solver: after ten halvings the stress has been halved once more than the
  residual and the slope that the step then uses were evaluated for
  (`evpal.cpp:280-289`; second case of C126_line_search).
* `write_micro_state_pvtu` scales the deformed corner positions by the voxel size of the
  wrong direction: right only where the mean gradient does not couple directions of
  different voxel size (C130_positions_refuted; LS-EVPFFT uses the third size everywhere).
* `Manager_MPI_IO::write_ascii` writes the terminating zero one past its buffer
  (C131_text_refuted); files are opened without truncation, so a longer old file keeps its
  tail (C131_write says what is kept).
* `write_texture` has only the points of rank 0 (C131_texture_refuted).
* Gas points get an elastic strain of -100 as a mark, and a von Mises strain of 200 from it
  (C132_gas_refuted).
* `calc_IPF_colors` uses the degrees that `euler` returns as radians
  (C132_direction_refuted) and the matrix rather than its transpose
  (C132_direction_repaired); the large strain versions write `=+` for `+=`, so the matrix
  has one term of each sum and is never a rotation (C132_large_strain_refuted).
* LSNP-EVPFFT tests for the loaded nodes with the sides of the wrong directions
  (C133_surface_refuted); its interpolation weights are lopsided on odd grids
  (C134_odd_refuted); `wgt` takes the second side twice (C135_uniform_refuted); the outer
  loop makes `itmax_out + 1` passes (C136_limit_refuted); `update_grid` in the rotated scheme
  uses the local index in the global array (C136_nodes_refuted). Not modelled, but seen:
  `data_grain.cpp:198` bounds a loop over the second direction by the third frame width, and
  with `ibc == 0` the tolerance `error_bc` is read uninitialised.
* `harden` divides by the first hardening stress; `calc_c0` is never called in LS-EVPFFT;
  the device copy of `Goperr0` is never filled; the `execute` of the TLQS solver is a
  placeholder. Seen, not modelled.
* `host_ann_strength.hpp` adds a bias once for every input of its layer
  (C137_bias_refuted), uses the biases of the first layer in all of them
  (C137_layers_refuted, out of range when a later layer is wider: C137_wide_refuted), and
  never writes the stress (C137_stress_refuted); its outputs lie between zero and one
  whatever the weights (C137_range).
* `stl-to-voxelvtk.cpp`: a ray along an edge shared by two facets crosses neither, so the
  unit cube comes out with its diagonal voxels empty on every grid (C138_cube_refuted).
  `flagup`, `coN_max` and `coN_min` are read before they are set (C138_flag_refuted).  The
  extent takes a vertex only if it is strictly above the other two of its facet
  (C138_extent_refuted).  Without given lengths the coordinates of the file start at zero
  (C138_place_refuted).  The first direction is run twice, which C138_voxel shows to be
  harmless on plain rays; the normals are not turned with the coordinates.
* Checkpoints of the topology optimization (`FEA_Module_SGH.cpp`, `sgh_optimization.cpp`):
  `last_time_step` is the number of the last cycle when the final time ends the run but one
  more when the number of cycles does, so the adjoint starts with the last state on both sides
  (C139_stop_refuted).  After an output `sgh_solve` takes up the time step before it
  (`dt = cached_pregraphics_dt`) and `checkpoint_solve` does not, so the states solved again
  are others (C139_write_refuted).  The checkpoint has coordinates, velocities and energies
  only (C139_carried_refuted).  `--current_checkpoint` is done before the test against
  `begin()` (C139_decrement_refuted).
* The velocity limiter of the DG solver has a loop "verifying that the internal energy is positive"
  (`limit_vel.cpp` 249-267). It scales the deviation from the average, not the velocity, so a slow point
  with little energy can be moved to an average whose kinetic energy is larger than its total energy
  (`C141_internal_refuted`: both points start with positive internal energy, one ends with a negative one).
* The Venkatakrishnan limiter multiplies by at most 3/4 at the bound, so it changes fields that need no
  limiting (`C141_smooth_refuted`).
* The stand-alone mesh builder adds the origin twice to the points of a cylinder: `cylinder_transform`
  adds it (`MeshBuilder.cpp` 218-219) and so does `translate` (249) (`C142_cylinder_refuted`).
* Its check that the angle of a cylinder is at most 360 is made by `validate`, which runs after
  `derive` has turned the angle into radians, so two full turns are accepted (`C142_turns_refuted`).
* RZ `update_stress` has no branch for strength models run on the host or dual: they do nothing.

## What `Print Assumptions` lists

<!-- assumptions begin -->
* **closed under the global context** (158 theorems): C04: `C04_pairs`; C07: `C07_node_ids`, `C07_complete`, `C07_distinct_nodes`, `C07_shared_face`, `C07_no_other_sharing`; C09: `C09_in_range`, `C09_injective`, `C09_surjective`; C10: `C10_roundtrip`, `C10_vtk_order_refuted`, `C10_vtk_read_refuted`; C11: `C11_involution`, `C11_hex_order`; C26: `C26_read_partial`, `C26_read_refuted`; C28: `C28_node_order`; C29: `C29_sets_of_solver`, `C29_sets_in_input_order`; C30: `C30_source_layout`; C31: `C31_mesh`; C35: `C35_split`, `C35_split_leftmost`, `C35_join_split`, `C35_join_split_char`, `C35_terminates`, `C35_empty_delimiter_hangs`, `C35_trim`, `C35_trim_unique`, `C35_trim_idempotent`, `C35_array_values`, `C35_array_values_defined`, `C35_extract_list`; C36: `C36_faithful`, `C36_nodes`, `C36_schedule`; C38: `C38_sgh_accepts`, `C38_sgtm_accepts`, `C38_order_and_repetition`, `C38_parse_fails`, `C38_every_region_refuted`, `C38_raw_check_refuted`, `C38_node_allocation`, `C38_gauss_allocation`, `C38_corner_allocation`, `C38_material_allocation`, `C38_fill_allocation_partial`, `C38_internal_energy_refuted`, `C38_internal_energy_first`; C39: `C39_distinct`, `C39_in_range`, `C39_no_gaps`, `C39_fill_gauss_partial`, `C39_fill_gauss_refuted`; C43: `C43_race_free`, `C43_terminates`, `C43_paint_partial`, `C43_paint_order`; C45: `C45_defined_iff`, `C45_corners`; C52: `C52_nodes_partial`; C59: `C59_parse`; C61: `C61_distinct`, `C61_distinct_index`, `C61_distinct_series`, `C61_kinds`, `C61_length`; C74: `C74_slots`; C89: `C89_read`, `C89_unique`, `C89_layout`, `C89_last`; C90: `C90_total`, `C90_regular`, `C90_walk`, `C90_error_clears`; C91: `C91_get_set`, `C91_push`, `C91_erase`, `C91_lookup`, `C91_lookup_adds`, `C91_lookup_refuted`, `C91_gap_refuted`; C92: `C92_round_trip`, `C92_small_indent`, `C92_all_refuted`; C93: `C93_copy`, `C93_regular`, `C93_empty_refuted`; C94: `C94_push_front_refuted`, `C94_insert_refuted`; C95: `C95_misplaced_field_refuted`, `C95_stray_line_refuted`, `C95_dropped_refuted`, `C95_merged_refuted`, `C95_values_refuted`, `C95_refused_refuted`; C96: `C96_dynamic`, `C96_accepts`, `C96_rejects`, `C96_integers`, `C96_from_file`, `C96_missing_refuted`, `C96_blank_refuted`, `C96_cycles_refuted`; C97: `C97_solvers`, `C97_accepts`, `C97_no_list_refuted`, `C97_text_id_refuted`; C98: `C98_mesh`, `C98_accepts`, `C98_exit_refuted`, `C98_incomplete_refuted`, `C98_numbers_refuted`; C99: `C99_output`, `C99_accepts`, `C99_inline_refuted`; C100: `C100_conditions`, `C100_temperature_refuted`, `C100_heat_flux_refuted`; C101: `C101_materials`, `C101_regions`, `C101_region_refuted`, `C101_multimaterial`, `C101_geo_refuted`; C109: `C109_modes`, `C109_order_refuted`; C110: `C110_coefficients`; C111: `C111_frequencies`; C114: `C114_checked`; C130: `C130_arrays`, `C130_counts`, `C130_numbering`, `C130_fields`, `C130_cells`, `C130_pieces`, `C130_names`; C131: `C131_write`, `C131_decomposition`, `C131_read`, `C131_round_trip`, `C131_h5`, `C131_text_refuted`, `C131_text_repaired`, `C131_texture_single`, `C131_texture_refuted`; C133: `C133_surface_cube`, `C133_surface_refuted`; C136: `C136_neighbours`, `C136_nodes_single`, `C136_nodes_refuted`; C137: `C137_stress_refuted`; C138: `C138_filled`, `C138_file`; C140: `C140_order`, `C140_flags`, `C140_boundary`, `C140_processes`
* **`sig_forall_dec`** (15 theorems): C37: `C37_count`, `C37_index_partial`, `C37_index_only`, `C37_index_refuted`; C43: `C43_paint_refuted`; C59: `C59_mat`; C60: `C60_series`, `C60_entries`, `C60_limit`; C61: `C61_other_solver`; C81: `C81_terms_partial`, `C81_terms_refuted`; C87: `C87_interior`; C110: `C110_numbers_refuted`; C116: `C116_gas_refuted`
* **`classic`, `sig_forall_dec`** (1 theorems): C61: `C61_no_stale`
* **`sig_forall_dec`, `functional_extensionality_dep`** (222 theorems): C06: `C06_contiguous`, `C06_forward_bounded_partial`, `C06_bounded_refuted`, `C06_forward_refuted`; C07: `C07_build_3d_box`, `C07_last_node`, `C07_build_3d_HexN`, `C07_HexN_out_of_bounds`, `C07_cell_volume`, `C07_total_volume`; C08: `C08_build_2d_box`, `C08_box_area`; C11: `C11_hex_volume`, `C11_quad_area_refuted`, `C11_quad_area_vtu`; C12: `C12_closure`, `C12_translation`; C13: `C13_moments`, `C13_gradient`, `C13_affine`, `C13_box`, `C13_floor`; C14: `C14_closure`, `C14_moments`; C15: `C15_setup`, `C15_corner_share`, `C15_nonneg`, `C15_positive`, `C15_run`; C16: `C16_element_balance`, `C16_stage`, `C16_step`, `C16_run`; C17: `C17_step_balance`, `C17_step_general`, `C17_run`, `C17_tallies`; C18: `C18_linear`, `C18_translation`, `C18_rotation`, `C18_divergence`; C19: `C19_coefficients`, `C19_stage`, `C19_constant_force`, `C19_free_flight`; C20: `C20_pressure`, `C20_positive`; C21: `C21_irreversible`, `C21_void`, `C21_no_force`, `C21_only_when_met`, `C21_when_met`; C22: `C22_defined_iff`, `C22_slot_to_element`, `C22_element_to_slot`, `C22_element_order`; C26: `C26_centers_partial`, `C26_last_layer_refuted`, `C26_bounded_partial`, `C26_outside_refuted`, `C26_single_voxel_refuted`; C27: `C27_value`, `C27_unique`, `C27_at_points`, `C27_at_jumps`, `C27_between_neighbours`, `C27_range`, `C27_monotone`, `C27_continuous`, `C27_straight_lines`, `C27_bad_column`, `C27_empty`; C30: `C30_range`, `C30_update`, `C30_sum`, `C30_sum_refuted`, `C30_pure`, `C30_direction`, `C30_order_independent`; C31: `C31_element`; C32: `C32_last_wins`, `C32_single_partial`, `C32_sum_refuted`; C34: `C34_uniform_interior`, `C34_gradient_sign_refuted`; C40: `C40_sum_of_materials_partial`, `C40_own_contribution`, `C40_later_erosion_wipes`; C41: `C41_density`, `C41_volume`, `C41_coupled_single_material_partial`; C42: `C42_regular`; C43: `C43_masses`, `C43_force`, `C43_velocity`, `C43_energy`, `C43_position`, `C43_tallies`, `C43_listed_twice`; C45: `C45_sums`; C46: `C46_limiter`; C47: `C47_read_file`, `C47_value_temperature`, `C47_accepted`, `C47_own_table_partial`, `C47_shared_table_refuted`, `C47_last_table_wins`, `C47_missing_field`; C48: `C48_tool_path`; C49: `C49_pressure`, `C49_pressure_monotone`; C51: `C51_mass`, `C51_energy`, `C51_frame`; C52: `C52_nodes_refuted`; C53: `C53_point_values_partial`, `C53_zero_mass_refuted`, `C53_material_mass_partial`, `C53_total_mass_partial`, `C53_level_set_partial`, `C53_several_points_refuted`; C54: `C54_power`; C59: `C59_elem`, `C59_between`, `C59_total_mass`, `C59_energy`, `C59_node`, `C59_node_partial`, `C59_repeats`, `C59_repeats_refuted`, `C59_node_refuted`; C65: `C65_tallies`; C67: `C67_linear`, `C67_divergence`, `C67_hoop_partial`, `C67_hoop_refuted`; C71: `C71_rotation_partial`; C74: `C74_pairs`; C80: `C80_sides`; C82: `C82_sort`, `C82_grid`; C83: `C83_search`; C86: `C86_face`; C87: `C87_moment`, `C87_release_refuted`; C102: `C102_inverse`, `C102_positive`, `C102_regular_refuted`, `C102_flag_refuted`; C103: `C103_power`; C105: `C105_anisotropic`, `C105_isotropic`, `C105_isotropic_elastic`, `C105_rotated`, `C105_isotropy`; C108: `C108_rate`, `C108_law`; C110: `C110_parameters`; C112: `C112_tangent`, `C112_units_refuted`; C113: `C113_stress`, `C113_phase`, `C113_plastic`, `C113_phase_refuted`; C114: `C114_imposed`, `C114_attained`, `C114_towards`, `C114_shear_refuted`; C122: `C122_single_slip`, `C122_plastic_volume_refuted`, `C122_spin_refuted`; C123: `C123_pass`; C124: `C124_faces`, `C124_shared`, `C124_written_faces`, `C124_undeformed`, `C124_positions_partial`, `C124_positions_refuted`, `C124_processes_refuted`, `C124_uniform_refuted`; C127: `C127_units_refuted`; C128: `C128_stress`, `C128_green`, `C128_together`, `C128_undeformed`, `C128_restored`, `C128_inverse`; C130: `C130_seamless`, `C130_positions_partial`, `C130_positions_needed`, `C130_positions_refuted`, `C130_start`; C132: `C132_large_strain_refuted`, `C132_turns`; C133: `C133_affine`, `C133_no_drift`, `C133_fixed_corners`; C134: `C134_odd_refuted`; C136: `C136_ends`, `C136_limit_refuted`, `C136_stiffness`, `C136_passes`; C138: `C138_extent`, `C138_extent_refuted`, `C138_place_refuted`; C139: `C139_forward`, `C139_adjoint`, `C139_stop_refuted`, `C139_decrement_refuted`, `C139_write_refuted`, `C139_carried_refuted`; C141: `C141_bounds`, `C141_share`, `C141_mean`, `C141_smooth`, `C141_volume`, `C141_velocity`, `C141_velocity_share`, `C141_momentum`, `C141_internal`, `C141_smooth_refuted`, `C141_internal_refuted`
* **`sig_forall_dec`, `functional_extensionality_dep`, `sig_not_dec`** (356 theorems): C01: `C01_step_bounds`; C02: `C02_progress`, `C02_ends`, `C02_reaches_final_time`; C03: `C03_cfl`, `C03_eroded_does_not_restrict`; C04: `C04_size_is_min_distance`; C05: `C05_outputs`, `C05_schedule`, `C05_defined`, `C05_cycle_limit_written_refuted`, `C05_late_start_interval_refuted`, `C05_crawl_when_behind`, `C05_many_outputs_refuted`; C06: `C06_backward_window_negative_step`; C08: `C08_build_2d_polar`, `C08_polar_area`, `C08_polar_area_positive`; C14: `C14_heron`, `C14_corner_areas`, `C14_corner_areas_total`, `C14_corner_areas_nonneg`; C17: `C17_refuted`; C20: `C20_sound_speed_floor`, `C20_sound_speed`, `C20_sound_speed_monotone`, `C20_isentropic`; C23: `C23_schedule`, `C23_last_full_fill_wins`, `C23_uncovered_is_empty`, `C23_outside_unchanged`, `C23_limit`, `C23_defined`, `C23_elsewhere_refuted`, `C23_refill_refuted`; C24: `C24_fractions_in_range`, `C24_contents_partial`, `C24_accepts_partial`, `C24_one_slot_per_material_refuted`, `C24_sum_refuted`, `C24_sum_background_refuted`; C25: `C25_shapes`, `C25_total`, `C25_growing`, `C25_inside`; C28: `C28_check_bdy`, `C28_patch_sets`, `C28_node_sets`, `C28_global_matches_nothing`, `C28_two_dimensional_refuted`; C29: `C29_fixed_and_constant`, `C29_other_nodes_unchanged`, `C29_order_independent`, `C29_reflected_iff`, `C29_reflected_refuted`, `C29_reflected_oblique_refuted`, `C29_piston_partial`, `C29_piston_outside_window`, `C29_piston_refuted`; C31: `C31_stage`, `C31_run`, `C31_uniform`, `C31_linear`; C32: `C32_defined_iff`, `C32_first_covers`, `C32_two_regions_undefined`, `C32_capacity_refuted`; C33: `C33_convection`, `C33_radiation`, `C33_loss`, `C33_total`, `C33_area_partial`, `C33_area_refuted`, `C33_order`; C34: `C34_node_order`; C40: `C40_refuted`; C41: `C41_coupled_refuted`; C43: `C43_timestep`; C44: `C44_negative_radius_refuted`, `C44_valid_radius_rejected`; C46: `C46_rz_spin_refuted`, `C46_directional_box`; C49: `C49_sound_speed`, `C49_consistent`; C50: `C50_total_force`, `C50_closed_surface`, `C50_nodal_force`, `C50_set_order`, `C50_patch_order`; C52: `C52_given_velocity`, `C52_radial_velocity`, `C52_spherical_velocity`, `C52_origin`, `C52_vortex`, `C52_level_set_sphere`, `C52_level_set_cylinder_refuted`, `C52_volume_fraction_origin_refuted`, `C52_spherical_2d_refuted`; C54: `C54_cycle`, `C54_first_position_refuted`; C55: `C55_prescribed`, `C55_free`; C56: `C56_step_bounds`, `C56_stability`, `C56_ends`, `C56_outputs`, `C56_schedule`; C57: `C57_melting`, `C57_step`; C58: `C58_step_bounds`, `C58_cfl`, `C58_size`, `C58_front_travel`, `C58_negative_velocity_refuted`, `C58_never_grows`, `C58_ends`, `C58_overshoot_refuted`, `C58_outputs`, `C58_spacing`, `C58_drift_refuted`; C62: `C62_setup_masses_partial`, `C62_corner_masses`, `C62_mixed_refuted`; C63: `C63_areal_partial`, `C63_mass_kept`, `C63_leaving_axis_refuted`; C64: `C64_radius`, `C64_stage`, `C64_step`; C65: `C65_execute_partial`, `C65_step`, `C65_axis_refuted`; C66: `C66_execute_partial`, `C66_viscosity_refuted`; C68: `C68_forces`, `C68_uniform_pressure`, `C68_rest`; C69: `C69_density_partial`, `C69_strength_refuted`; C70: `C70_update`, `C70_run`, `C70_pressure`; C71: `C71_elastic`, `C71_return`, `C71_plastic_work`, `C71_isotropy`, `C71_hold_partial`, `C71_hold_refuted`, `C71_rotation_refuted`; C72: `C72_update`, `C72_run`, `C72_trace_refuted`; C73: `C73_hold`, `C73_stretch_partial`, `C73_shear_refuted`, `C73_units_refuted`; C75: `C75_matches`, `C75_complete_partial`, `C75_complete_refuted`; C76: `C76_parts`, `C76_frame`, `C76_spin`; C79: `C79_momentum`, `C79_resist`, `C79_aligned_partial`, `C79_torque_refuted`, `C79_area`, `C79_share`, `C79_face_normal`, `C79_direction`, `C79_normal`; C80: `C80_motion`, `C80_opening_partial`, `C80_opening_refuted`; C83: `C83_patch`, `C83_overrun_refuted`; C84: `C84_test`, `C84_recorded`, `C84_inside`, `C84_slack_refuted`; C85: `C85_slots`, `C85_slots_preload`, `C85_distinct_refuted`; C86: `C86_inverse`, `C86_foot`; C87: `C87_balance`, `C87_push`, `C87_shares_partial`; C88: `C88_converged`, `C88_head_on`; C104: `C104_constants`, `C104_tensor`, `C104_vector`, `C104_product`, `C104_fourth`; C105: `C105_stable`, `C105_reference`; C106: `C106_rotation`; C107: `C107_history`, `C107_turn`, `C107_spin_partial`, `C107_spin_refuted`; C108: `C108_resolved`, `C108_pressure`, `C108_flow`, `C108_dissipation`; C109: `C109_cubic`, `C109_hexagonal`, `C109_system`, `C109_obtuse_refuted`; C110: `C110_voce`, `C110_shear`, `C110_history`; C111: `C111_correction`, `C111_fixed_point`, `C111_others`; C112: `C112_solution_kept`, `C112_fixed_point`, `C112_terminates`, `C112_spin`, `C112_accuracy`; C113: `C113_imposed`, `C113_reported`, `C113_mixed_partial`, `C113_mixed_refuted`, `C113_plastic_run`; C115: `C115_strain`, `C115_stress`, `C115_plastic`, `C115_axes`, `C115_strain_axes`, `C115_shape`, `C115_triangle`, `C115_zero`, `C115_tension`; C116: `C116_deformation`, `C116_bounded`, `C116_tangent`, `C116_within`, `C116_hold_refuted`, `C116_volume_refuted`, `C116_strain_refuted`, `C116_beyond`, `C116_once`; C117: `C117_transform`, `C117_mean`, `C117_layout`, `C117_strain`, `C117_equilibrium`, `C117_fixed_point`, `C117_uniform`, `C117_compatible_partial`, `C117_nyquist_refuted`; C118: `C118_points`, `C118_twelve_refuted`, `C118_order_ten_refuted`; C119: `C119_kinematic`, `C119_unity`, `C119_nodal`, `C119_thermodynamic`, `C119_dg_positions_refuted`; C120: `C120_schedules`, `C120_layout`, `C120_points`, `C120_order_zero_refuted`; C121: `C121_decomposed`, `C121_returns`, `C121_no_division_by_zero`, `C121_small_increment`, `C121_rotation`, `C121_quarter_turn_refuted`; C122: `C122_kinematics`, `C122_increment`, `C122_plastic_volume_partial`, `C122_step`; C123: `C123_reported`, `C123_first`, `C123_later`, `C123_constant_partial`, `C123_uniform_stress`, `C123_change_refuted`, `C123_carried`; C124: `C124_first_order`; C125: `C125_transport`, `C125_rigid`, `C125_stiffness`; C126: `C126_tangent`, `C126_solution_kept`, `C126_rest`, `C126_fixed_point`, `C126_unique`, `C126_line_search`, `C126_descent`, `C126_terminates`, `C126_pressure_refuted`, `C126_accuracy`, `C126_spin`, `C126_residual`, `C126_slip`; C127: `C127_flow`, `C127_dissipates`, `C127_monotone`, `C127_isotropic`, `C127_pressure`, `C127_yield_refuted`, `C127_linear`, `C127_zero_refuted`, `C127_tangent`, `C127_history`; C128: `C128_components`, `C128_green_components`, `C128_product`, `C128_stable`, `C128_turned_refuted`, `C128_self`; C129: `C129_size`, `C129_step_bounds`, `C129_cfl`, `C129_eroded`, `C129_axis`, `C129_progress`, `C129_reaches_final_time`, `C129_outputs`, `C129_schedule`, `C129_defined`, `C129_crawl_when_behind`; C132: `C132_elastic`, `C132_tensors`, `C132_gas_refuted`; C134: `C134_kept`, `C134_mean_even`, `C134_range`; C135: `C135_gradient`, `C135_uniform`, `C135_uniform_refuted`, `C135_recovered_exact`; C136: `C136_error`, `C136_frame_law`; C137: `C137_network`, `C137_set_up`, `C137_range`, `C137_wide_refuted`; C138: `C138_crossed`, `C138_ray`, `C138_corrections`, `C138_voxel`, `C138_flag_refuted`, `C138_cube_refuted`; C142: `C142_filled`, `C142_shared`, `C142_box`, `C142_cylinder`, `C142_cylinder_partial`, `C142_type`, `C142_cylinder_refuted`, `C142_turns_refuted`
* **`classic`, `sig_forall_dec`, `functional_extensionality_dep`, `sig_not_dec`** (59 theorems): C13: `C13_volume_is_integral`, `C13_inverted_cell_hidden`; C14: `C14_area_is_integral`, `C14_rz_volume`; C16: `C16_stage_mars`; C34: `C34_stage_bounded_partial`, `C34_step_bounded_partial`, `C34_change_bounded`, `C34_other_elements_kept`, `C34_zero_kept`, `C34_plane_front`, `C34_distance_front`, `C34_uniform_refuted`, `C34_shared_element_refuted`, `C34_defined`, `C34_element_order`; C42: `C42_partial`, `C42_trace`, `C42_spherical_undefined`, `C42_singular`, `C42_refuted`; C46: `C46_viscous`, `C46_galilean`, `C46_spin`, `C46_solver_work`; C76: `C76_translation`, `C76_spin_refuted`; C77: `C77_damage`, `C77_growth`, `C77_last_stage`, `C77_compression_refuted`; C78: `C78_law_partial`, `C78_failed_partial`, `C78_frozen`, `C78_two_stage`, `C78_failed_refuted`, `C78_prony_refuted`, `C78_spin_drift`; C106: `C106_round`, `C106_angles`, `C106_poles_refuted`; C107: `C107_slow_refuted`; C110: `C110_grows`, `C110_weak_refuted`; C118: `C118_gauss`, `C118_lobatto`, `C118_midpoint`, `C118_element`; C127: `C127_grows`; C132: `C132_direction`, `C132_direction_repaired`, `C132_direction_refuted`, `C132_colours`, `C132_colour_001`, `C132_cubic`, `C132_corners`; C135: `C135_recovered`; C137: `C137_bias_refuted`, `C137_layers_refuted`
<!-- assumptions end -->
