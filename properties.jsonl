{"id": "C01", "title": "Time step respects every bound of the controller", "statement": "In every cycle of an SGH run the time step actually taken is at most dt_max, at most 1.1 times the dt carried into the cycle, at most time_final - t + tiny, and at most max(fuzz, graphics_time - t) + tiny; hence no cycle jumps past the solver's final time by more than tiny, nor past the next graphics time by more than fuzz + tiny.", "quantifier": "every mesh, every number of materials >= 1, every node position, sound speed and erosion flag, every user dt_min/dt_max/dt_start/CFL, every cycle of every run", "why_tests_cant": "the bound must survive any combination of element sizes, materials and earlier steps; a test sees one trajectory", "anchors": ["apps/multiphysics/src/Solvers/SGH_solver_3D/src/time_integration.cpp: SGH3D::get_timestep", "apps/multiphysics/src/Solvers/SGH_solver_3D/src/sgh_execute.cpp: SGH3D::execute"]}
{"id": "C02", "title": "Runs progress and terminate", "statement": "Simulated time strictly increases in every cycle while t < time_final, by at least a positive amount fixed by the inputs alone (dt_start, dt_min, dt_max, fuzz, tiny), so a run with enough cycles always reaches time_final; a run stops only by reaching time_final or by using exactly cycle_stop cycles.", "quantifier": "all inputs with positive dt_start, dt_min, dt_max, fuzz, tiny and all material histories (arbitrary per-cycle element sizes and sound speeds, erosion)", "why_tests_cant": "termination is a statement about all unboundedly long histories; a test can only observe finitely many finite runs", "anchors": ["apps/multiphysics/src/Solvers/SGH_solver_3D/src/sgh_execute.cpp: SGH3D::execute", "apps/multiphysics/src/Solvers/SGH_solver_3D/src/time_integration.cpp: SGH3D::get_timestep"]}
{"id": "C03", "title": "CFL stability limit", "statement": "The step never exceeds dt_cfl * h / (c + fuzz) for any non-eroded element of any material, where h is the smallest distance between any two of its eight nodes and c its sound speed, unless dt_min itself exceeds that limit; eroded elements never restrict the step below min(dt_max,1e32) (or dt_min).", "quantifier": "all meshes, materials, elements and node positions", "why_tests_cant": "needs all pairs of nodes of all elements for arbitrary geometry", "anchors": ["apps/multiphysics/src/Solvers/SGH_solver_3D/src/time_integration.cpp: SGH3D::get_timestep"]}
{"id": "C04", "title": "Element size uses every node pair exactly once", "statement": "The 28-iteration index recurrence used to size an element visits every unordered pair of distinct nodes of the 8-node element exactly once and never a pair of equal or out-of-range nodes, so the computed size equals the minimum over all pairs and is independent of node order.", "quantifier": "all 28 pairs; all node positions for the resulting minimum", "why_tests_cant": "the consequence (size is the exact minimum) is over all real coordinates", "anchors": ["apps/multiphysics/src/Solvers/SGH_solver_3D/src/time_integration.cpp: SGH3D::get_timestep"]}
{"id": "C05", "title": "Output schedule", "statement": "A run always writes the initial state first; whenever the run reaches the solver's final time the state at that time is written and it is the last thing written; every time the simulated time passes the pending graphics time an output is written in that same cycle; written times are strictly increasing. (A run that stops on cycle_stop is expected to write its last state too.)", "quantifier": "all runs, schedules and intervals", "why_tests_cant": "quantifies over whole histories of cycles", "anchors": ["apps/multiphysics/src/Solvers/SGH_solver_3D/src/sgh_execute.cpp: SGH3D::execute"]}
{"id": "C06", "title": "Solver time windows chain", "statement": "The time windows assigned to the user's list of solvers are contiguous (each starts where the previous ended), start at 0, never run backwards and never extend beyond the global time_final.", "quantifier": "all lists of solver inputs (any length) and all time_final", "why_tests_cant": "arbitrary-length solver lists with arbitrary end times", "anchors": ["apps/multiphysics/src/driver.cpp: Driver::setup_solver_vars"]}
{"id": "C07", "title": "3D box mesh is a valid structured mesh", "statement": "Building a 3D box with nx,ny,nz elements writes every node coordinate and every connectivity entry exactly inside the arrays, gives node (i,j,k) the position origin + (i dx, j dy, k dz) with the last node exactly at origin+length, and element (i,j,k) the eight distinct nodes (i..i+1, j..j+1, k..k+1) in i-fastest order; neighbouring elements share exactly the four nodes of their common face.", "quantifier": "all element counts >= 1, all origins and lengths", "why_tests_cant": "mesh dimensions are unbounded", "anchors": ["apps/multiphysics/src/common/include/mesh_io.hpp: MeshBuilder::build_3d_box, get_id"]}
{"id": "C08", "title": "2D box and polar meshes are valid", "statement": "Building a 2D box (or polar) mesh numbers nodes bijectively, lists each quad's four nodes counter-clockwise, keeps all ids in range, and places nodes at origin+(i dx, j dy) (or at the requested radius and angle); every quad of a positive-size box has positive area.", "quantifier": "all element counts, origins, lengths, radii and angles", "why_tests_cant": "unbounded sizes, real parameters", "anchors": ["apps/multiphysics/src/common/include/mesh_io.hpp: MeshBuilder::build_2d_box, build_2d_polar"]}
{"id": "C09", "title": "Arbitrary-order VTK index is a bijection", "statement": "For any polynomial orders (>=1 per direction) the Lagrange-hexahedron point index maps the (order+1)^3 lattice points one-to-one onto 0..(n-1).", "quantifier": "all orders, all lattice points", "why_tests_cant": "orders unbounded", "anchors": ["apps/multiphysics/src/common/include/mesh_io.hpp: PointIndexFromIJK"]}
{"id": "C10", "title": "High-order mesh files round-trip", "statement": "Writing the connectivity of a high-order hexahedral mesh and reading it back gives each element its original node list; and the file follows the VTK Lagrange ordering (position PointIndexFromIJK(i,j,k) of the cell holds node (i,j,k)).", "quantifier": "all orders, all connectivity tables", "why_tests_cant": "all orders and all node lists", "anchors": ["apps/multiphysics/src/common/include/mesh_io.hpp: MeshReader::read_vtu_mesh, MeshWriter::write_vtu"]}
{"id": "C11", "title": "Linear-mesh file node order conversion", "statement": "Reading an 8-node (or 4-node) mesh file converts each element to the ordering the rest of the code expects: converting twice is the identity, and an undistorted element has positive volume/area after reading.", "quantifier": "all elements and coordinates", "why_tests_cant": "real-valued coordinates of every element", "anchors": ["apps/multiphysics/src/common/include/mesh_io.hpp: read_ensight_mesh, read_vtk_mesh, read_Abaqus_mesh"]}
{"id": "C12", "title": "Hexahedral B-matrix closes", "statement": "The eight corner area vectors of any hexahedron sum to zero, whatever its shape, and are unchanged by translating it.", "quantifier": "all node coordinates (including degenerate and inverted cells)", "why_tests_cant": "real-valued geometry", "anchors": ["apps/multiphysics/src/common/src/geometry_new.cpp: geometry::get_bmatrix"]}
{"id": "C13", "title": "Hexahedral volume is consistent with the B-matrix and with calculus", "statement": "For any hexahedron sum_n x_i(n) b_j(n) = V delta_ij with V the computed volume; V is the exact integral of the trilinear Jacobian; the B-matrix is the gradient of V with respect to node positions; V is translation invariant, scales with the cube, and equals dx dy dz on a box (up to the positive floor).", "quantifier": "all node coordinates", "why_tests_cant": "identity over 24 reals", "anchors": ["apps/multiphysics/src/common/src/geometry_new.cpp: get_vol_hex, get_bmatrix"]}
{"id": "C14", "title": "2D geometry identities", "statement": "For any quad the 2D area vectors sum to zero, sum_n x_i(n) b_j(n) = A delta_ij with A the signed area, the four corner areas partition the quad's triangles, and the axisymmetric volume equals the integral of r over the quad.", "quantifier": "all quads", "why_tests_cant": "identity over 8 reals", "anchors": ["apps/multiphysics/src/common/src/geometry_new.cpp: get_bmatrix2D, get_area_quad, get_vol_quad, get_area_weights2D, heron"]}
{"id": "C15", "title": "Mass is conserved between materials, corners and nodes", "statement": "After set-up the sum of nodal masses equals the sum of corner masses equals the sum of all material masses, and masses are non-negative.", "quantifier": "all meshes, all multi-material layouts", "why_tests_cant": "all mesh topologies", "anchors": ["apps/multiphysics/src/common/src/region_fill.cpp: calc_corner_mass, calc_node_mass"]}
{"id": "C16", "title": "Momentum conservation", "statement": "The internal corner forces of every element sum to zero, so over any Runge-Kutta stage without boundary, body or contact forces total momentum is unchanged, and with them it changes exactly by alpha*dt times their sum.", "quantifier": "all meshes, states, stresses, volume fractions, dt, RK stage counts", "why_tests_cant": "all mesh topologies and states", "anchors": ["apps/multiphysics/src/Solvers/SGH_solver_3D/src/force_sgh.cpp: SGH3D::get_force", "apps/multiphysics/src/Solvers/SGH_solver_3D/src/momentum.cpp: SGH3D::update_velocity"]}
{"id": "C17", "title": "Total energy conservation of the compatible scheme", "statement": "Over each Runge-Kutta stage (measured from the start-of-step state) the change of total kinetic plus internal energy equals the work done by boundary and contact forces on the nodes, up to the explicit 1e-20 mass regularisation; with no external force energy is conserved to that regularisation.", "quantifier": "all meshes, multi-material layouts, states, stresses, dt, stage counts", "why_tests_cant": "identity over all states and topologies", "anchors": ["apps/multiphysics/src/Solvers/SGH_solver_3D/src/energy_sgh.cpp: SGH3D::update_energy", "apps/multiphysics/src/Solvers/SGH_solver_3D/src/momentum.cpp: update_velocity", "apps/multiphysics/src/Solvers/SGH_solver_3D/src/force_sgh.cpp: get_force"]}
{"id": "C18", "title": "Discrete velocity gradient is exact for linear fields", "statement": "For any element shape with nonzero volume a linear velocity field v = A x + c yields exactly the gradient A; rigid translation yields zero, rigid rotation yields zero divergence and zero symmetric part.", "quantifier": "all element shapes and linear fields", "why_tests_cant": "real-valued", "anchors": ["apps/multiphysics/src/Solvers/SGH_solver_3D/src/momentum.cpp: get_velgrad, get_divergence, decompose_vel_grad"]}
{"id": "C19", "title": "Runge-Kutta stage structure", "statement": "With N stages, stage coefficients are 1/N, 1/(N-1), ..., 1; the final stage uses coefficient exactly 1 and always restarts from the saved start-of-step values, so a constant force gives exactly v+dt F/m and the matching position update after any N >= 1.", "quantifier": "all N, dt, states", "why_tests_cant": "unbounded N", "anchors": ["apps/multiphysics/src/Solvers/SGH_solver_3D/src/sgh_execute.cpp: execute", "apps/multiphysics/src/Solvers/SGH_solver_3D/src/position.cpp: update_position", "apps/multiphysics/src/Solvers/SGH_solver_3D/src/momentum.cpp: update_velocity"]}
{"id": "C20", "title": "Gamma-law equation of state", "statement": "For density >= 0, energy >= 0 and gamma >= 1 pressure is non-negative and equals (gamma-1) rho e, is monotone in density and energy, the sound speed is never below the user floor and equals sqrt(gamma p / rho) above it.", "quantifier": "all states and parameters", "why_tests_cant": "real-valued", "anchors": ["apps/multiphysics/src/material_models/eos/gamma_law_eos.hpp"]}
{"id": "C21", "title": "Erosion is irreversible and yields a void state", "statement": "Once a material point is eroded it stays eroded for the rest of the run; an eroded point carries zero stress and pressure and exerts no force; a point is eroded only when the user's density or failure criterion was met.", "quantifier": "all histories", "why_tests_cant": "whole histories", "anchors": ["apps/multiphysics/src/Solvers/SGH_solver_3D/src/properties.cpp: SGH3D::update_state", "apps/multiphysics/src/material_models/erosion/basic_erosion.hpp"]}
{"id": "C22", "title": "Material/element index maps are inverse", "statement": "After set-up, for every material the list of its elements and each element's list of material slots are mutually inverse, each (element, material slot) has its own storage slot, slots are numbered 0..n-1 without gaps and every material's count matches what is stored.", "quantifier": "all fills, meshes and numbers of materials per element", "why_tests_cant": "all layouts", "anchors": ["apps/multiphysics/src/common/src/region_fill.cpp: material_state_setup, simulation_setup"]}
{"id": "C23", "title": "Region fills: later fills win, earlier fills stay elsewhere", "statement": "After processing the user's fill list in order, an element whose last covering fill is a full (volume fraction 1) fill contains exactly that fill, an element covered by no fill contains nothing, and elements outside a fill's region are unaffected by it; the number of materials in an element never exceeds the limit.", "quantifier": "all fill lists of any length, all elements", "why_tests_cant": "unbounded fill lists", "anchors": ["apps/multiphysics/src/common/src/region_fill.cpp: fill_regions, append_fills_in_elem"]}
{"id": "C24", "title": "Partial fills keep one slot per material and volume fractions that sum to at most one", "statement": "After any sequence of partial fills an element holds each material at most once and its volume fractions lie in [0,1] and sum to at most 1.", "quantifier": "all fill sequences", "why_tests_cant": "unbounded sequences", "anchors": ["apps/multiphysics/src/common/src/region_fill.cpp: append_fills_in_elem"]}
{"id": "C25", "title": "Geometric regions", "statement": "A point is painted by a box, cylinder or sphere fill exactly when it satisfies the closed geometric inequalities of the shape; growing a region never drops a point.", "quantifier": "all points and parameters", "why_tests_cant": "real-valued", "anchors": ["apps/multiphysics/src/common/src/region_fill.cpp: fill_geometric_region"]}
{"id": "C26", "title": "Voxel fills", "statement": "Looking up the centre of voxel (i,j,k) of the input file returns that voxel's value, and points outside the voxel box are never filled.", "quantifier": "all grids", "why_tests_cant": "all grid sizes", "anchors": ["apps/multiphysics/src/common/src/region_fill.cpp: user_voxel_init, fill_geometric_region"]}
{"id": "C27", "title": "Table interpolation", "statement": "Linear interpolation in a table with non-decreasing abscissae returns the tabulated value at each table point, stays between neighbouring values, is clamped outside, is monotone when the data are, and never reads outside the table.", "quantifier": "all tables of any length and all x", "why_tests_cant": "unbounded tables", "anchors": ["apps/multiphysics/src/common/include/table.hpp: Table_t::linear_interpolation"]}
{"id": "C28", "title": "Boundary tagging", "statement": "A boundary patch belongs to a set iff all its nodes satisfy the surface equation within tolerance; each set lists matching patches once, in order; the node set is exactly the nodes of those patches, each once.", "quantifier": "all meshes, sets, tolerances", "why_tests_cant": "all topologies", "anchors": ["apps/multiphysics/src/common/src/geometry_new.cpp: check_bdy, tag_bdys, build_boundry_node_sets"]}
{"id": "C29", "title": "Velocity boundary conditions", "statement": "A zero-velocity or constant-velocity condition leaves every node of the set with exactly the prescribed velocity and no other node changed, independent of the order in which nodes are processed; a reflected (symmetry) condition removes exactly the normal velocity component and keeps the tangential one.", "quantifier": "all node sets, normals and velocities, all processing orders", "why_tests_cant": "all orders and normals", "anchors": ["apps/multiphysics/src/Solvers/SGH_solver_3D/src/boundary.cpp: boundary_velocity", "apps/multiphysics/src/boundary_conditions/velocity/*"]}
{"id": "C30", "title": "Pressure equilibration keeps volume fractions valid", "statement": "Tipton pressure relaxation keeps every material volume fraction in [0,1] and leaves the sum of volume fractions in each element unchanged (up to the fuzz regularisation).", "quantifier": "all multi-material states", "why_tests_cant": "all numbers of materials and states", "anchors": ["apps/multiphysics/src/material_models/equilibration/src/tipton_equilibration.cpp"]}
{"id": "C31", "title": "Conduction conserves heat and obeys the second law", "statement": "Heat conduction in an element moves heat between its nodes without creating any (corner transfers sum to zero) and never from cold to hot overall (sum T q <= 0); with no sources, total heat content is unchanged by a stage.", "quantifier": "all elements, temperatures, conductivities >= 0", "why_tests_cant": "all states and meshes", "anchors": ["apps/multiphysics/src/Solvers/SGTM_solver_3D/src/heat_flux.cpp: get_heat_flux", "apps/multiphysics/src/Solvers/SGTM_solver_3D/src/temperature_sgtm.cpp"]}
{"id": "C32", "title": "Multi-material conduction adds the contributions of all materials", "statement": "In an element holding several materials, the heat transferred to a node is the sum of every material's contribution, and each material's own heat capacity is used.", "quantifier": "all multi-material layouts", "why_tests_cant": "all layouts", "anchors": ["apps/multiphysics/src/Solvers/SGTM_solver_3D/src/heat_flux.cpp", "apps/multiphysics/src/Solvers/SGTM_solver_3D/src/temperature_sgtm.cpp"]}
{"id": "C33", "title": "Convective and radiative boundary heat loss", "statement": "Convection removes heat proportional to h*(T-293.15)*area and radiation eps*sigma*T^4*area, with the area of the patch correct for any planar quad, so hot walls always lose heat.", "quantifier": "all quads, temperatures", "why_tests_cant": "real-valued", "anchors": ["apps/multiphysics/src/Solvers/SGTM_solver_3D/src/boundary.cpp (boundary_convection, boundary_radiation)"]}
{"id": "C34", "title": "Level-set update is upwind and bounded", "statement": "The Hamilton-Jacobi average of an element is a convex-type average of nodal values (never exceeds the largest, never negative), signum stays in (-1,1), and a uniform field stays uniform.", "quantifier": "all states", "why_tests_cant": "real-valued", "anchors": ["apps/multiphysics/src/Solvers/level_set_solver/src/*"]}
{"id": "C35", "title": "String splitting and trimming", "statement": "Splitting by a nonempty delimiter and re-joining returns the original string, no piece contains the delimiter, and trimming removes exactly the leading/trailing blanks and is idempotent; no function reads outside the string.", "quantifier": "all strings and delimiters", "why_tests_cant": "unbounded strings", "anchors": ["apps/multiphysics/src/common/include/string_utils.hpp"]}
{"id": "C36", "title": "Exported material part meshes are faithful", "statement": "The compacted mesh written for a material contains exactly that material's elements, numbers its nodes 0..n-1 without gaps, and every element corner keeps its coordinates.", "quantifier": "all meshes and material layouts", "why_tests_cant": "all topologies", "anchors": ["apps/multiphysics/src/common/include/mesh_io.hpp: build_material_elem_node_lists"]}
{"id": "C37", "title": "Multi-block output index lists every file written", "statement": "The .vtm file written for an output references exactly the material files that were written for it.", "quantifier": "all sets of empty/non-empty materials", "why_tests_cant": "all layouts", "anchors": ["apps/multiphysics/src/common/include/mesh_io.hpp: write_vtm, write_mesh"]}
{"id": "C38", "title": "Required initial-state check", "statement": "The run is accepted exactly when every state the solver needs is filled by the user, independent of order and repetition in the list; every requested field is allocated.", "quantifier": "all lists of fields", "why_tests_cant": "all lists", "anchors": ["apps/multiphysics/src/common/include/state.hpp: check_fill_node_states, check_fill_mat_states, fillGaussState_t, GaussPoint_t::initialize"]}
{"id": "C39", "title": "Storage indices of quadrature, zone and corner data never collide", "statement": "Per-material storage indices for corners, zones, gauss, lobatto and quadrature points are distinct for distinct (element, local index) pairs and lie in range, for any number of points per element.", "quantifier": "all counts", "why_tests_cant": "all sizes", "anchors": ["apps/multiphysics/src/common/include/state.hpp: corners_in_mat_t, points_in_mat_t, ...", "apps/multiphysics/src/common/src/region_fill.cpp"]}
{"id": "C40", "title": "Eroding one material leaves other materials' forces alone", "statement": "The force on a corner is the sum of contributions of all materials in the element; an eroded material contributes zero and does not alter the contribution of the others.", "quantifier": "all multi-material layouts and material orders", "why_tests_cant": "all layouts/orders", "anchors": ["apps/multiphysics/src/Solvers/SGH_solver_3D/src/force_sgh.cpp: get_force"]}
{"id": "C41", "title": "Density follows volume", "statement": "After each update the density of a material times its actual volume gives back its mass (up to the 1e-20 regularisation), is positive for positive mass, and halving the volume doubles it.", "quantifier": "all states", "why_tests_cant": "real-valued", "anchors": ["apps/multiphysics/src/Solvers/SGH_solver_3D/src/properties.cpp: update_state"]}
{"id": "C42", "title": "Largest principal stretch rate", "statement": "The routine for the largest eigenvalue magnitude of a symmetric 3x3 tensor returns it for every symmetric tensor.", "quantifier": "all symmetric tensors", "why_tests_cant": "real-valued", "anchors": ["apps/multiphysics/src/Solvers/SGH_solver_3D/src/sgh_execute.cpp: max_Eigen3D"]}
{"id": "C43", "title": "Parallel accumulation is order independent", "statement": "Gathering corner contributions and min-reductions give the same (exact-arithmetic) results for any execution order of the parallel loops, because each location is written by one iteration or combined by a commutative operation.", "quantifier": "all schedules (permutations) of loop iterations", "why_tests_cant": "all schedules", "anchors": ["apps/multiphysics/src/Solvers/SGH_solver_3D/src/momentum.cpp", "apps/multiphysics/src/Solvers/SGH_solver_3D/src/time_integration.cpp", "apps/multiphysics/src/common/src/region_fill.cpp"]}
{"id": "C44", "title": "Polar mesh radius check", "statement": "When the 2D polar mesh builder succeeds, no node has a negative radius in the convention used by the axisymmetric solver (second coordinate), and a mesh without negative radius is not rejected.", "quantifier": "every polar mesh input", "why_tests_cant": "all origins, radii and angles", "anchors": ["apps/multiphysics/src/common/include/mesh_io.hpp: build_2d_polar", "apps/multiphysics/src/common/src/geometry_new.cpp: get_vol_quad"]}
{"id": "C45", "title": "Corner connectivity", "statement": "The corner tables built from an element-node table give each element and each node exactly its own corners: every (element, local node) pair appears exactly once in the list of the node it names, and node sums of corner values equal element sums. Building them is defined exactly for tables whose node ids are in range.", "quantifier": "every element-node table", "why_tests_cant": "tables of all sizes and with any sharing pattern", "anchors": ["legacy/Fierro_V0/src/Parallel-Solvers/Parallel-Explicit/SGH_Solver/include/mesh.h: build_corner_connectivity", "apps/multiphysics/src/Solvers/SGH_solver_3D/src/momentum.cpp: update_velocity_sgh"]}
{"id": "C46", "title": "MARS artificial viscosity", "statement": "The MARS and directional MARS dissipation forces (3D and RZ) never do positive work on the nodes they act on, sum to zero over the cell (up to the fuzz guard), do not change when a constant velocity is added to all nodes (up to the fuzz guard), have a limiter between its floor and 1, and do not depend on the sense of rotation of the flow.", "quantifier": "every cell state, velocity field and parameter set", "why_tests_cant": "real-valued inputs of all kinds", "anchors": ["apps/multiphysics/src/material_models/artificial_viscosity/mars.hpp: MARSDissipationModel, DirMARSDissipationModel, MARSRZDissipationModel, DirMARSRZDissipationModel"]}
{"id": "C47", "title": "Property tables from files", "statement": "The table of a material property holds exactly the rows of that property's block in the material's file, in the order (temperature, value), wherever the block is and whatever comments and blank lines it has; a table with descending temperatures or rows of different lengths is rejected; and each material's properties are interpolated from its own file.", "quantifier": "every file, table and set of materials", "why_tests_cant": "unbounded files and tables", "anchors": ["apps/multiphysics/src/input/read_abaqus_files.cpp: AbaqusReader::read_tabular_jmatpro_file", "apps/multiphysics/src/input/parse_material_inputs.cpp: parse_materials", "apps/multiphysics/src/material_models/tabular/include/tabular_material_model.hpp"]}
{"id": "C48", "title": "Tool path", "statement": "The position and the power of the additive-manufacturing tool follow the piecewise linear path through the points given by the user, each coordinate from its own column, and stay at the first and last point outside the time range.", "quantifier": "every tool path and time", "why_tests_cant": "unbounded paths", "anchors": ["apps/multiphysics/src/common/include/additive_data.hpp: ToolPathInfo"]}
{"id": "C49", "title": "Linear elastic equation of state", "statement": "The pressure is zero exactly at the reference density, positive exactly in compression, monotone in density, and proportional to the strain with the bulk modulus; the sound speed is sqrt((B+4G/3)/rho) but never below the user's floor.", "quantifier": "all densities and moduli", "why_tests_cant": "real-valued", "anchors": ["apps/multiphysics/src/material_models/eos/elasticity.hpp: LinearElasticEOS"]}
{"id": "C50", "title": "Stress boundary conditions", "statement": "The force of a stress boundary condition on a patch is the prescribed stress times the patch's vector area, shared equally by the patch's nodes and added to what other conditions contribute; it does not depend on the order in which patches are processed, it is decayed and switched on and off at the prescribed times, and a uniform stress on a closed surface exerts no net force.", "quantifier": "all patches, coordinates, stresses, times, processing orders", "why_tests_cant": "all geometries and orders", "anchors": ["apps/multiphysics/src/Solvers/SGH_solver_3D/src/boundary.cpp: boundary_stress", "apps/multiphysics/src/boundary_conditions/stress/constant_stress_bc.hpp", "apps/multiphysics/src/boundary_conditions/stress/time_varying_stress_bc.hpp"]}
{"id": "C51", "title": "Equilibration exchanges mass and energy consistently", "statement": "Pressure equilibration never changes a material's mass; afterwards every density equals mass over the material's new volume; the energy given to the materials of a point is minus the work of the mean pressure on the total volume change; points and materials not visited are untouched.", "quantifier": "all layouts, states, equations of state and coefficients", "why_tests_cant": "every combination of materials and states", "anchors": ["apps/multiphysics/src/material_models/equilibration/src/tipton_equilibration.cpp: TiptonEquilibrationModel::mat_equilibration, build_gauss_point_averages, calc_gauss_point_averages, calc_volfrac_change, update_state_equilibration"]}
{"id": "C52", "title": "Painted initial fields", "statement": "The initial velocity painted on a node is the one the user described: the given components, zero, or the given speed directed away from the axis or the origin (zero at the origin itself), or the vortex flow, which is divergence free; a spherical or radial level set is the signed distance to the given sphere or cylinder; fields follow the given origin; a 2D result depends on the node's own coordinates; nodal values do not depend on the order of the parallel loop.", "quantifier": "all coordinates, parameters, meshes and loop orders", "why_tests_cant": "real-valued inputs and unboundedly many interleavings", "anchors": ["apps/multiphysics/src/common/src/region_fill.cpp: paint_vector, paint_multi_scalar, get_region_scalar, fill_regions"]}
{"id": "C53", "title": "Initial material state is the filled state", "statement": "After set-up each material point holds the volume fractions, density, conductivity and specific heat filled for its element and material, mass = density x volume x fractions, and a specific energy that reproduces the given specific or total energy; masses add up to those of the filled slots, per material and in total; the level set of an element is the least one filled.", "quantifier": "all fills, meshes and numbers of gauss points", "why_tests_cant": "all layouts and real values", "anchors": ["apps/multiphysics/src/common/src/region_fill.cpp: material_state_setup, simulation_setup"]}
{"id": "C54", "title": "Moving heat source brings its power", "statement": "With a moving heat source, every cycle adds to the heat content the source's power density times the volume of the elements whose centre lies within its radius, each element counted once whatever materials it holds; power and position follow the tool path.", "quantifier": "all meshes, layouts, tool positions and step counts", "why_tests_cant": "all real-valued states and histories", "anchors": ["apps/multiphysics/src/Solvers/SGTM_solver_3D/src/heat_flux.cpp: moving_flux", "apps/multiphysics/src/Solvers/SGTM_solver_3D/src/sgtm_execute.cpp"]}
{"id": "C55", "title": "Prescribed wall temperatures are met", "statement": "After every stage a node on a boundary with a prescribed temperature has that temperature (the last such boundary wins), and every other node has changed by exactly the heat that arrived divided by its heat capacity.", "quantifier": "all boundary sets, meshes and states", "why_tests_cant": "all overlaps of boundary sets", "anchors": ["apps/multiphysics/src/Solvers/SGTM_solver_3D/src/boundary.cpp: boundary_temperature", "apps/multiphysics/src/Solvers/SGTM_solver_3D/src/temperature_sgtm.cpp: update_temperature"]}
{"id": "C56", "title": "Thermal time step is stable and hits its targets", "statement": "Every step of the thermal solver is at most 0.3 of the von Neumann limit h^2 den cp / (6 k) of each element (or dt_min), at most dt_max and 1.1 times the last step, does not overshoot the end or the next output by more than tiny, and the calculation ends and writes its outputs as the hydro solver does.", "quantifier": "all time options and all sequences of element states", "why_tests_cant": "every run of the cycle loop", "anchors": ["apps/multiphysics/src/Solvers/SGTM_solver_3D/src/time_integration.cpp: get_timestep", "apps/multiphysics/src/Solvers/SGTM_solver_3D/src/sgtm_execute.cpp: execute"]}
{"id": "C57", "title": "Melting is marked when reached and never undone", "statement": "A material point is marked molten in a stage exactly if it already was or the mean nodal temperature of its element is at least 900.", "quantifier": "all states and layouts", "why_tests_cant": "all states", "anchors": ["apps/multiphysics/src/Solvers/SGTM_solver_3D/src/heat_flux.cpp: get_heat_flux"]}
{"id": "C58", "title": "Level-set time step follows the front and hits its targets", "statement": "Every step of the level-set solver is at most dt_max, at most 1.1 times the last, and small enough that the front travels at most dt_cfl times the shortest edge of every element it evolves in; it does not pass the end or the next output by more than tiny, and outputs come at the requested interval.", "quantifier": "all time options, materials, velocities and sequences of cycles", "why_tests_cant": "every run of the cycle loop", "anchors": ["apps/multiphysics/src/Solvers/level_set_solver/src/time_integration.cpp: get_timestep, get_timestep_2D", "apps/multiphysics/src/Solvers/level_set_solver/src/level_set_execute.cpp: execute"]}
{"id": "C59", "title": "Graphics fields are what their names say", "statement": "Every field named in the output options appears in the graphics file under its name, in the order named. In an element the density, pressure, sound speed and stress are averages over its materials weighted by their volume fractions, the mass is the sum, and the specific internal energy is the mass average; so an average lies between the least and the greatest value of its materials and the shown masses add up to the mass of the whole problem. Node and material fields show the values of the nodes and material points. None of this depends on the schedule of the parallel loops.", "quantifier": "all meshes, distributions of materials, states, lists of requested fields and schedules", "why_tests_cant": "all lists of fields, states and schedules", "anchors": ["apps/multiphysics/src/common/include/mesh_io.hpp: write_mesh, concatenate_elem_fields, concatenate_mat_fields, concatenate_nodal_fields", "apps/multiphysics/src/input/parse_output_options.cpp: parse_output_options", "apps/multiphysics/src/common/include/output_options.hpp"]}
{"id": "C60", "title": "Every output is found in the time series", "statement": "After any sequence of graphics outputs of a solver, whatever the output directory held before, the .pvd series of the solver lists exactly the outputs made, in order and with their times, and every entry leads to an index whose mesh block leads to the data written by that output (later outputs do not change it).", "quantifier": "all sequences of at most 20000 outputs, all contents of the directory before, all solver ids and options", "why_tests_cant": "every history of outputs", "anchors": ["apps/multiphysics/src/common/include/mesh_io.hpp: write_vtk, write_vtm, write_pvd"]}
{"id": "C61", "title": "Output files do not collide", "statement": "Different solvers, pieces (mesh or material) and outputs never write the same file; no path is cut off by the 100 character buffer; the outputs of one solver leave the files of the others alone, and after the outputs of solver 0 no file of an earlier calculation is left while files of other programs are kept.", "quantifier": "all solver ids, material numbers, output numbers, histories and directory contents", "why_tests_cant": "all numbers and directory contents", "anchors": ["apps/multiphysics/src/common/include/mesh_io.hpp: write_vtk, write_vtu, write_vtm, write_pvd"]}
{"id": "C62", "title": "Axisymmetric set-up masses", "statement": "In a 2D RZ calculation, the nodal masses computed at set-up, times the radius of the node, add up to the mass per radian of the materials (density times volume of revolution times the share of the element); nodal areal masses add up to density times area; corner masses left behind are areal corner mass times node radius.", "quantifier": "every mesh of quadrilaterals, layout of materials, density field and node position", "why_tests_cant": "The identity between four Heron-formula corner areas, the radius weights and the volume of revolution is over all non-inverted quadrilaterals.", "anchors": ["apps/multiphysics/src/Solvers/SGH_solver_rz/src/sgh_setup_rz.cpp: calc_corner_mass_rz, calc_node_mass_rz, SGHRZ::setup", "apps/multiphysics/src/Solvers/SGH_solver_rz/src/sgh_execute_rz.cpp: calc_node_extensive_mass_rz", "apps/multiphysics/src/common/src/geometry_new.cpp: geometry::get_area_weights2D"]}
{"id": "C63", "title": "Axisymmetric areal masses during a run", "statement": "At the end of every Runge-Kutta stage the areal mass of a node clear of the axis is its mass per radian over its radius, and a boundary node on the axis gets half the largest areal mass among its neighbours off the axis; no node that has mass loses it.", "quantifier": "every mesh, state, history and stage", "why_tests_cant": "The update is an unordered loop over boundary nodes reading masses other iterations may write; whether a node keeps its mass depends on the motion.", "anchors": ["apps/multiphysics/src/Solvers/SGH_solver_rz/src/sgh_execute_rz.cpp: calc_node_areal_mass_rz, SGHRZ::execute"]}
{"id": "C64", "title": "Axisymmetric velocity and position updates", "statement": "Each stage of a step of an RZ calculation integrates from the state at the beginning of the step with the stage fraction of the time step: velocity by force over areal mass followed by the boundary conditions, position by the mean of old and new velocity; no node ever gets a negative radius.", "quantifier": "every state, number of stages, step size and boundary condition", "why_tests_cant": "The clamp at the axis must hold after every stage of every run.", "anchors": ["apps/multiphysics/src/Solvers/SGH_solver_rz/src/momentum_rz.cpp: SGHRZ::update_velocity_rz", "apps/multiphysics/src/Solvers/SGH_solver_rz/src/position_rz.cpp: SGHRZ::update_position_rz", "apps/multiphysics/src/Solvers/SGH_solver_rz/src/time_integration_rz.cpp: SGHRZ::rk_init_rz", "apps/multiphysics/src/Solvers/SGH_solver_rz/src/sgh_execute_rz.cpp: SGHRZ::execute"]}
{"id": "C65", "title": "Axisymmetric energy conservation", "statement": "The internal plus kinetic energy per radian that the RZ solver prints is conserved by every run whose boundary conditions leave velocity components free or hold them at zero.", "quantifier": "every mesh, material layout, model, step size, number of stages and number of cycles", "why_tests_cant": "Conservation comes from an exact cancellation between the force, energy and areal mass updates over all histories.", "anchors": ["apps/multiphysics/src/Solvers/SGH_solver_rz/src/energy_sgh_rz.cpp: SGHRZ::update_energy_rz", "apps/multiphysics/src/Solvers/SGH_solver_rz/src/force_sgh_rz.cpp: SGHRZ::get_force_rz", "apps/multiphysics/src/Solvers/SGH_solver_rz/src/sgh_execute_rz.cpp: sum_domain_internal_energy_rz, sum_domain_kinetic_energy_rz, SGHRZ::execute"]}
{"id": "C66", "title": "Axial momentum of axisymmetric runs", "statement": "Without external axial constraints a run of the RZ solver conserves the momentum along the axis; the artificial viscosity exerts no net axial force and never does positive work.", "quantifier": "every mesh, state and history", "why_tests_cant": "The weights are the radii of the nodes, so cancellation of the unweighted forces is not enough; tests use symmetric problems.", "anchors": ["apps/multiphysics/src/Solvers/SGH_solver_rz/src/force_sgh_rz.cpp: SGHRZ::get_force_rz", "apps/multiphysics/src/material_models/artificial_viscosity/mars.hpp"]}
{"id": "C67", "title": "Axisymmetric velocity gradient", "statement": "For a velocity field that is linear in (z, r) the RZ velocity gradient is exact in the plane, the hoop rate of uniform radial stretching v_r = a r is a, and the divergence is the trace.", "quantifier": "every element shape and linear field", "why_tests_cant": "Exactness on unit squares says nothing about distorted elements.", "anchors": ["apps/multiphysics/src/Solvers/SGH_solver_rz/src/momentum_rz.cpp: SGHRZ::get_velgrad_rz, SGHRZ::get_divergence_rz"]}
{"id": "C68", "title": "Axisymmetric forces", "statement": "A material point pushes each corner of its element with minus its stress times the outward normal plus the hoop terms plus viscosity, times its share of the element, corner forces are the sums over the materials; under uniform pressure a node with elements all around feels no force, and a body at rest under uniform pressure inside rigid walls stays at rest with its energy unchanged.", "quantifier": "every mesh, layout, model, pressure and state", "why_tests_cant": "Equilibrium has to hold for every unstructured fan of elements around a node.", "anchors": ["apps/multiphysics/src/Solvers/SGH_solver_rz/src/force_sgh_rz.cpp: SGHRZ::get_force_rz", "apps/multiphysics/src/common/src/geometry_new.cpp: geometry::get_bmatrix2D"]}
{"id": "C69", "title": "Axisymmetric density", "statement": "After every stage the density of a material point that is not eroded, times the volume of revolution of its share of the element, is its mass.", "quantifier": "every mesh, layout, model and state", "why_tests_cant": "Mixed elements with strength models are combinations tests do not reach.", "anchors": ["apps/multiphysics/src/Solvers/SGH_solver_rz/src/properties_rz.cpp: SGHRZ::update_state_rz"]}
{"id": "C70", "title": "Plastic stress stays admissible", "statement": "The stress deviator of a material with the hypo-elastic-plastic strength model is symmetric, has zero trace and a von Mises stress not above the yield strength after every call and at every moment of every run; the pressure is then the mean normal stress of the total stress.", "quantifier": "every velocity gradient, modulus, non-negative yield strength, step size, number of stages, run and behaviour of the other materials", "why_tests_cant": "An invariant of unbounded histories; tests look at the end state of a few runs.", "anchors": ["apps/multiphysics/src/material_models/strength/decoupled_plasticity.hpp: HypoPlasticityModel::calc_stress", "apps/multiphysics/src/Solvers/SGH_solver_3D/src/properties.cpp: SGH3D::update_stress", "apps/multiphysics/src/Solvers/SGH_solver_3D/src/sgh_execute.cpp: SGH3D::execute"]}
{"id": "C71", "title": "Response of the plastic material", "statement": "Below yield the stress deviator follows Hooke's law plus rotation with the material; above yield it returns radially to the yield surface and the return dissipates; the response is the same in every orthonormal frame; a material at rest or uniformly compressed keeps its deviator; a rigid rotation does not change the von Mises stress.", "quantifier": "every velocity gradient, state, moduli and step size", "why_tests_cant": "Frame independence and dissipation range over all rotations and states.", "anchors": ["apps/multiphysics/src/material_models/strength/decoupled_plasticity.hpp: HypoPlasticityModel::calc_stress"]}
{"id": "C72", "title": "Axisymmetric plastic stress stays admissible", "statement": "The stress deviator of the RZ version is symmetric, has no out-of-plane shear, zero trace and a von Mises stress not above the yield strength throughout every run.", "quantifier": "every velocity gradient, modulus, non-negative yield strength, step size, number of stages and run", "why_tests_cant": "An invariant of unbounded histories.", "anchors": ["apps/multiphysics/src/material_models/strength/decoupled_plasticity.hpp: HypoPlasticityRZModel::calc_stress", "apps/multiphysics/src/Solvers/SGH_solver_rz/src/sgh_execute_rz.cpp: SGHRZ::execute"]}
{"id": "C73", "title": "Response of the axisymmetric plastic material", "statement": "A material at rest keeps its stress; below yield the RZ version gives the same stress as Hooke's law and the 3D version; the result does not depend on the unit in which stress is measured.", "quantifier": "every velocity gradient, state, moduli and step size", "why_tests_cant": "Agreement with the 3D model in all directions of strain, and unit independence, are statements over all states.", "anchors": ["apps/multiphysics/src/material_models/strength/decoupled_plasticity.hpp: HypoPlasticityRZModel::calc_stress"]}
{"id": "C74", "title": "Cohesive zones are found exactly", "statement": "The table of cohesive-zone pairs lists exactly the pairs of boundary nodes that coincide within the tolerance, each once, without ever writing outside the table, and every element at either node of a pair has a slot.", "quantifier": "every mesh, node position, tolerance and list of boundary nodes", "why_tests_cant": "The claim is about all pairs of nodes of all meshes; a two-pass count-then-fill scheme fails on the case not tried.", "anchors": ["apps/multiphysics/src/Solvers/SGH_solver_3D/src/fracture.cpp: cohesive_zones_t::initialize", "apps/multiphysics/src/Solvers/SGH_solver_3D/src/fracture.cpp: cohesive_zones_t::cohesive_zone_elem_count"]}
{"id": "C75", "title": "Faces joined by a cohesive zone", "statement": "Every face recorded for a pair contains the node of the pair, coincides with a recorded face of exactly one element on the other side, and points the opposite way; every such pair of facing faces at the two nodes is recorded.", "quantifier": "every mesh, node position, tolerance and pair", "why_tests_cant": "Whether a face is lost depends on the local arrangement of elements; tests use flat interfaces.", "anchors": ["apps/multiphysics/src/Solvers/SGH_solver_3D/src/fracture.cpp: cohesive_zones_t::build_cohesive_zone_info", "apps/multiphysics/src/Solvers/SGH_solver_3D/src/fracture.cpp: cohesive_zones_t::compute_face_geometry"]}
{"id": "C76", "title": "Opening of a cohesive zone", "statement": "The normal and tangential openings make up the separation of the two nodes, now and as predicted; they do not depend on the observer's axes, origin or velocity; a rigid motion of the pair neither opens nor damages it.", "quantifier": "every position, velocity, unit normal, step size, rotation and frame", "why_tests_cant": "Objectivity quantifies over all rotations and frames.", "anchors": ["apps/multiphysics/src/Solvers/SGH_solver_3D/src/fracture.cpp: cohesive_zones_t::ucmap", "apps/multiphysics/src/Solvers/SGH_solver_3D/src/fracture.cpp: cohesive_zones_t::cohesive_zone_var_update"]}
{"id": "C77", "title": "Damage of a cohesive zone", "statement": "Damage stays between 0 and 1, never decreases, grows only while the zone opens and by the stated rate, and only the last stage of a step counts.", "quantifier": "every parameter set with non-negative rate, every history of motions and step sizes, every number of stages", "why_tests_cant": "An invariant over unbounded histories of arbitrary motions.", "anchors": ["apps/multiphysics/src/Solvers/SGH_solver_3D/src/fracture.cpp: cohesive_zones_t::cohesive_zone_var_update", "apps/multiphysics/src/Solvers/SGH_solver_3D/src/fracture.cpp: cohesive_zones_t::commit_internal_vars", "apps/multiphysics/src/Solvers/SGH_solver_3D/src/sgh_execute.cpp: SGH3D::execute"]}
{"id": "C78", "title": "Traction of a cohesive zone", "statement": "The traction of a zone is the one its law gives for the current opening and damage; in particular a failed zone carries none, for ever, and a rigid rotation creates none.", "quantifier": "every parameter set, history of openings and step sizes", "why_tests_cant": "The traction is accumulated from increments, so the claim is about all histories.", "anchors": ["apps/multiphysics/src/Solvers/SGH_solver_3D/src/fracture.cpp: cohesive_zones_t::cohesive_zone_var_update", "apps/multiphysics/src/Solvers/SGH_solver_3D/src/fracture.cpp: cohesive_zones_t::commit_internal_vars", "apps/multiphysics/src/Solvers/SGH_solver_3D/src/sgh_execute.cpp: SGH3D::execute"]}
{"id": "C79", "title": "Forces of cohesive zones", "statement": "The forces of the zones add up to zero and change only the nodes of pairs; the work against the separation is area times traction times opening; the pair exerts no torque; the area of a plane convex face is exact; the normal has length one.", "quantifier": "every mesh, set of pairs, traction and separation", "why_tests_cant": "Conservation and exactness over all meshes and face shapes.", "anchors": ["apps/multiphysics/src/Solvers/SGH_solver_3D/src/fracture.cpp: cohesive_zones_t::cohesive_zone_loads", "apps/multiphysics/src/Solvers/SGH_solver_3D/src/fracture.cpp: cohesive_zones_t::oriented", "apps/multiphysics/src/Solvers/SGH_solver_3D/src/fracture.cpp: cohesive_zones_t::add_cohesive_zone_nodal_forces"]}
{"id": "C80", "title": "Prescribed motion of the reorientation mode", "statement": "Each side moves rigidly, a pair opens by rate times time along a unit normal, velocities carry every node exactly to its position at the end of the step, the nodes of the elements beyond the interface form the B side, and the effective opening seen by the zone does not depend on the rotation.", "quantifier": "every rotation rate, opening rate, time, step size and mesh", "why_tests_cant": "The mode is itself a validation test; whether it measures what it claims is a statement over all rates and times.", "anchors": ["apps/multiphysics/src/Solvers/SGH_solver_3D/include/reorientation_kinematics.hpp: prescribe_reorientation_kinematics", "apps/multiphysics/src/Solvers/SGH_solver_3D/src/fracture.cpp: cohesive_zones_t::initialize_reorientation_mode", "apps/multiphysics/src/Solvers/SGH_solver_3D/src/fracture.cpp: cohesive_zones_t::ucmap"]}
{"id": "C81", "title": "Prony terms of a cohesive zone reach the solver", "statement": "The material constants of the viscous terms given in the input are the ones used, for every number of terms.", "quantifier": "every input row and number of terms", "why_tests_cant": "Tests use few terms; the limit is in the staging buffer.", "anchors": ["apps/multiphysics/src/Solvers/SGH_solver_3D/src/fracture.cpp: cohesive_zones_t::initialize_fracture_bc"]}
{"id": "C82", "title": "Contact sort places every boundary node", "statement": "Sorting for contact puts each boundary node in the bucket of the one grid cell that contains it and in no other, for any order in which the threads run; the bucket slices together list every boundary node exactly once, and no array is overrun.", "quantifier": "every node position (two boundary nodes at different places), list of boundary nodes and thread order", "why_tests_cant": "A counting sort with concurrent increments; the claim is over all positions and schedules.", "anchors": ["apps/multiphysics/src/Solvers/SGH_solver_3D/src/contact.cpp: sort"]}
{"id": "C83", "title": "Contact search sees every near node", "statement": "The search round a boundary patch looks at every boundary node inside the patch's capture box, once, and stays inside its arrays.", "quantifier": "every mesh, patch and node position", "why_tests_cant": "Overrun needs a patch whose box spans nearly the whole grid; tests use small patches.", "anchors": ["apps/multiphysics/src/Solvers/SGH_solver_3D/src/contact.cpp: find_penetrating_nodes", "apps/multiphysics/src/Solvers/SGH_solver_3D/src/contact.cpp: penetration_capture_box"]}
{"id": "C84", "title": "Penetration test and its record", "statement": "A node is recorded for a patch exactly when it is near the plane of the patch, on the inner side of the five faces of the column under it and not a node of the element, each patch once, up to 100 per node; a point inside a parallelepiped passes for all faces; a node away from the element is not recorded.", "quantifier": "every mesh, node and patch", "why_tests_cant": "Geometry over all positions and sizes.", "anchors": ["apps/multiphysics/src/Solvers/SGH_solver_3D/src/contact.cpp: penetration_check", "apps/multiphysics/src/Solvers/SGH_solver_3D/src/contact.cpp: find_penetrating_nodes"]}
{"id": "C85", "title": "Pairing of nodes with patches", "statement": "A penetrating node gets one slot for each element it penetrates; the slot holds the nearest patch of that element facing the node's material (in preload, the one facing it most); no patch is paired twice with the same node.", "quantifier": "every mesh, row of recorded patches and node", "why_tests_cant": "Depends on the arrangement of several bodies.", "anchors": ["apps/multiphysics/src/Solvers/SGH_solver_3D/src/contact.cpp: penetration_sweep"]}
{"id": "C86", "title": "Contact point", "statement": "The patch coordinates of a pair describe the foot of the perpendicular from the node on the patch: exactly for parallelepipeds, within 1e-8 of the target when the inverse map converges.", "quantifier": "every element shape, face and node position", "why_tests_cant": "An iterative inverse over all shapes.", "anchors": ["apps/multiphysics/src/Solvers/SGH_solver_3D/src/contact.cpp: isoparametric_inverse", "apps/multiphysics/src/Solvers/SGH_solver_3D/src/contact.cpp: penetration_sweep"]}
{"id": "C87", "title": "Contact forces balance and only push", "statement": "For every number of pairs and iterations the contact forces add up to zero, vanish off the boundary, never pull and act only while the contact point is on the patch; the forces are those of the pairs, so a released pair leaves nothing behind.", "quantifier": "every list of pairs, mesh state, number of local and global iterations", "why_tests_cant": "Conservation over unbounded iterations.", "anchors": ["apps/multiphysics/src/Solvers/SGH_solver_3D/src/contact.cpp: force_resolution", "apps/multiphysics/src/Solvers/SGH_solver_3D/src/contact.cpp: distribute_frictionless_force"]}
{"id": "C88", "title": "Contact force closes the gap", "statement": "When the increment reports convergence, node and contact point coincide at the end of the step (squared distance at most 1e-15); a head-on hit on a flat patch converges in three iterations to the force that closes the gap along the normal.", "quantifier": "every position, velocity, force, mass and step size", "why_tests_cant": "Convergence of a Newton iteration over all states.", "anchors": ["apps/multiphysics/src/Solvers/SGH_solver_3D/src/contact.cpp: frictionless_increment", "apps/multiphysics/src/Solvers/SGH_solver_3D/src/contact.cpp: get_normal_derivatives"]}
{"id": "C89", "title": "A YAML input file is read as written", "statement": "Parsing a well-formed file of nested mappings, sequences and texts yields a tree holding exactly the data of the file, whatever the indentation, spaces, quoting, comments, empty lines and line ends; two files with the same data give equal trees whatever their layout and key order; of texts given twice under a key the last counts.", "quantifier": "every document of any depth and width, every layout of it, every placement of comments", "why_tests_cant": "Unbounded nesting and layouts; tests try a few files.", "anchors": ["apps/multiphysics/src/input/Yaml.cpp: Parse", "apps/multiphysics/src/input/Yaml.cpp: ParseImp::ReadLines", "apps/multiphysics/src/input/Yaml.cpp: ParseImp::PostProcessLines", "apps/multiphysics/src/input/Yaml.cpp: ParseImp::ParseNode"]}
{"id": "C90", "title": "Parsing always ends in a tree or an exception", "statement": "For every text, parsing ends with a tree or one of its exceptions; a tree has no duplicate keys and its sequences are numbered 0..Size()-1 at every depth, so a loop over Size() meets each entry once; after an exception the root is empty.", "quantifier": "every text, well-formed or not", "why_tests_cant": "Termination and shape over all byte strings.", "anchors": ["apps/multiphysics/src/input/Yaml.cpp: ParseImp::PostProcessLines", "apps/multiphysics/src/input/Yaml.cpp: ParseImp::ParseNode", "apps/multiphysics/src/input/Yaml.cpp: Parse"]}
{"id": "C91", "title": "Reading and editing a tree", "statement": "After n[key]=x the key gives x and other keys what they gave; PushBack appends at Size(); Erase removes one key; looking a key up changes no value and never a tree's contents.", "quantifier": "every tree, key, index and new node", "why_tests_cant": "Laws over all trees.", "anchors": ["apps/multiphysics/src/input/Yaml.cpp: Node::operator []", "apps/multiphysics/src/input/Yaml.cpp: Node::PushBack", "apps/multiphysics/src/input/Yaml.cpp: Node::Erase"]}
{"id": "C92", "title": "Serialize then Parse is the identity", "statement": "A tree written with Serialize is read back by Parse as the same tree.", "quantifier": "every tree and serialisation setting", "why_tests_cant": "A round trip over unbounded trees.", "anchors": ["apps/multiphysics/src/input/Yaml.cpp: Serialize", "apps/multiphysics/src/input/Yaml.cpp: SerializeLoop"]}
{"id": "C93", "title": "Copies of a tree are equal to it", "statement": "Copying or assigning a node gives an equal tree, at every depth.", "quantifier": "every tree", "why_tests_cant": "Unbounded depth.", "anchors": ["apps/multiphysics/src/input/Yaml.cpp: NodeImp::operator =", "apps/multiphysics/src/input/Yaml.cpp: CopyNode"]}
{"id": "C94", "title": "Inserting into a sequence", "statement": "PushFront and Insert return, put the new node at the asked index and keep the other entries in order.", "quantifier": "every sequence, index and node", "why_tests_cant": "Termination.", "anchors": ["apps/multiphysics/src/input/Yaml.cpp: SequenceImp::PushFront", "apps/multiphysics/src/input/Yaml.cpp: SequenceImp::Insert"]}
{"id": "C95", "title": "Input is never silently taken for something else", "statement": "Text a user writes as a field, value or document is read as such or rejected; standard YAML within the supported subset is accepted.", "quantifier": "every input text", "why_tests_cant": "Silent misreadings are found by reasoning over the grammar, not by samples.", "anchors": ["apps/multiphysics/src/input/Yaml.cpp: ParseImp::PostProcessLines", "apps/multiphysics/src/input/Yaml.cpp: ParseImp::ReadLines"]}
{"id": "C96", "title": "Dynamic options are read as given", "statement": "When reading the dynamic options returns, every given key has set its option to the number in the file, every other option has kept its default, the required keys were given and no unknown key; a section with the required keys, known keys and values is accepted; a missing required key, an unknown key, a missing section or a missing value ends in an exception.", "quantifier": "every tree a file can give, every conversion of texts to numbers, every default", "why_tests_cant": "Holds for every combination of keys and values; a hang or an uninitialised variable shows in no passing test.", "anchors": ["apps/multiphysics/src/input/parse_dynamic_inputs.cpp: parse_dynamic_options", "apps/multiphysics/src/input/parse_tools.cpp: validate_inputs"]}
{"id": "C97", "title": "The list of solvers is read into its identifiers", "statement": "When reading the solver list returns, the identifiers are 0..n-1 each once in any order, and the solver with identifier i has the method, end time and heat source of the section that carries i; every list of complete sections with such identifiers is accepted; anything else ends in an exception.", "quantifier": "every list of solver sections of any length and order", "why_tests_cant": "Permutations of unbounded length.", "anchors": ["apps/multiphysics/src/input/parse_solver_inputs.cpp: parse_solver_input", "apps/multiphysics/src/input/parse_tools.cpp: validate_inputs"]}
{"id": "C98", "title": "Mesh options are read as given", "statement": "When reading the mesh options returns, each option is the given value or its default, vectors are the numbers between the brackets, and a generated mesh has no file name; complete and consistent sections are accepted, inconsistent ones end in an error.", "quantifier": "every tree, every conversion of texts to numbers", "why_tests_cant": "Every combination of keys.", "anchors": ["apps/multiphysics/src/input/parse_mesh_inputs.cpp: parse_mesh_input"]}
{"id": "C99", "title": "Output options are read as given", "statement": "When reading the output options returns, each list of fields holds the named fields in the order of the file (with the mass added to the specific energy), and unknown names were refused.", "quantifier": "every tree and every list length", "why_tests_cant": "Lists of unbounded length.", "anchors": ["apps/multiphysics/src/input/parse_output_options.cpp: parse_output_options"]}
{"id": "C100", "title": "Boundary conditions are read as given and listed for their solver", "statement": "When reading the boundary conditions returns, condition i has the surface, models and numbers of section i, solver s's list of velocity, temperature and stress conditions holds exactly the conditions of that solver with such a model, in the order of the file, and contact, preload and fracture are switched on exactly if a condition asks for them; unknown models are refused.", "quantifier": "every list of conditions, any number of solvers", "why_tests_cant": "Lists of unbounded length.", "anchors": ["apps/multiphysics/src/input/parse_bdy_conds_inputs.cpp: parse_bcs"]}
{"id": "C101", "title": "Materials, regions and multimaterial options go where the file says", "statement": "Material identifiers are 0..n-1 each once; each region is in the list of the solver it names and of no other; a solver that does not exist is refused; the equilibration models are those asked for.", "quantifier": "every list of materials and regions", "why_tests_cant": "Lists of unbounded length.", "anchors": ["apps/multiphysics/src/input/parse_material_inputs.cpp: parse_materials", "apps/multiphysics/src/input/parse_material_inputs.cpp: parse_multimaterial_options", "apps/multiphysics/src/input/parse_regions.cpp: parse_regions"]}
{"id": "C102", "title": "Matrix inversion replaces a matrix by its inverse", "statement": "For every matrix all of whose leading blocks are regular, in particular for every positive definite one, the in-place inversion leaves the inverse in its place; for every regular matrix it does so too, and the returned flag says whether it did.", "quantifier": "every size, every matrix, any contents of the scratch space", "why_tests_cant": "Pivots are real numbers; sizes are unbounded.", "anchors": ["apps/micromechanics/EVPFFT/src/math_functions.h: invert_matrix"]}
{"id": "C103", "title": "Integer powers are powers", "statement": "The integer power function returns base^exponent for every exponent of type int but the least and every base, nonzero if the exponent is negative.", "quantifier": "every base, every exponent of the type", "why_tests_cant": "Four thousand million exponents, any base.", "anchors": ["apps/micromechanics/EVPFFT/src/math_functions.h: PowIntExpo"]}
{"id": "C104", "title": "The tensor basis loses nothing", "statement": "Converting a symmetric tensor to its six components and back gives the tensor, with five components its deviator; converting components to a tensor and back gives the components; inner products are kept; the matrix of a fourth-order tensor acts on components as the tensor on tensors, and converting it back gives the tensor.", "quantifier": "every tensor, every vector of components, every fourth-order tensor with the minor symmetries", "why_tests_cant": "Identities over the reals in up to 81 variables.", "anchors": ["apps/micromechanics/EVPFFT/src/chg_basis.cpp: chg_basis_1, chg_basis_2, chg_basis_3, chg_basis_4"]}
{"id": "C105", "title": "Elastic constants mean what the file says, at every orientation", "statement": "The stress of a strain is the matrix of the file in Voigt's order times the strain, or Hooke's law for a given modulus and ratio; at a point with a crystal orientation it is the law in the axes of the crystal, turned back; symmetry and positive energy are kept by every orientation, an isotropic crystal is the same at every one; the reference medium is the mean over the solid points and has the inverse stiffness as its compliance.", "quantifier": "every matrix, modulus, ratio, orientation, strain, number of points", "why_tests_cant": "Identities and positivity over the reals, for any number of points.", "anchors": ["apps/micromechanics/EVPFFT/src/data_crystal_elast.cpp: data_crystal_elast", "apps/micromechanics/EVPFFT/src/voigt.cpp: voigt", "apps/micromechanics/EVPFFT/src/data_grain.cpp: data_grain"]}
{"id": "C106", "title": "Euler angles and orientations say the same", "statement": "Three angles always give a rotation; the angles written for an orientation, read again, give that orientation; the angles read for a point are the angles written for it.", "quantifier": "every triple of angles, every rotation", "why_tests_cant": "Trigonometric identities over the reals, with a case split near the poles.", "anchors": ["apps/micromechanics/EVPFFT/src/euler.cpp: euler", "apps/micromechanics/EVPFFT/src/data_grain.cpp: data_grain", "apps/micromechanics/EVPFFT/src/write_texture.cpp: write_texture"]}
{"id": "C107", "title": "Crystal axes stay a rotation and turn with the material", "statement": "After any number of steps with any velocity gradients and slips the axes of a crystal are a rotation matrix; one step turns them about the axis of the spin of the material less that of slip, by its rate times the step; a rigid rotation of the specimen turns them with the specimen.", "quantifier": "every history of steps, every spin, every number of steps", "why_tests_cant": "Histories are unbounded and the turn is a trigonometric identity.", "anchors": ["apps/micromechanics/EVPFFT/src/update_orient.cpp: update_orient", "apps/micromechanics/EVPFFT/src/orient.cpp: orient", "apps/micromechanics/EVPFFT/src/step.cpp: step_update_disgrad, step_velgrad", "apps/micromechanics/EVPFFT/src/vpsc_input.cpp: decompose_vel_grad"]}
{"id": "C108", "title": "Slip obeys its law and dissipates", "statement": "The stress that drives a slip system is the shear stress on its plane along its direction and pressure drives none; its rate is the power law, whose slope is the one the iteration uses; the plastic strain rate is the symmetric part of the distortion of the slips, keeps the volume, and the work of the stress on it is never negative.", "quantifier": "every orientation, stress, set of slip systems, exponent", "why_tests_cant": "All reals and any number of systems; a derivative is a limit.", "anchors": ["apps/micromechanics/EVPFFT/src/evpal.cpp: evpal", "apps/micromechanics/EVPFFT/src/update_schmid.cpp: update_schmid", "apps/micromechanics/EVPFFT/src/data_crystal.cpp: data_crystal"]}
{"id": "C109", "title": "Slip systems of a crystal file are what its indices say", "statement": "The direction lies in the plane just when the product of the indices is zero, for three and four indices; such a pair makes unit vectors at right angles, another stops the program; the modes asked for are the modes stored.", "quantifier": "every set of indices, cell and list of modes", "why_tests_cant": "Indices and lists are unbounded.", "anchors": ["apps/micromechanics/EVPFFT/src/data_crystal.cpp: data_crystal"]}
{"id": "C110", "title": "Hardening follows Voce's law of the accumulated shear", "statement": "However a history is cut into steps, the strength of a system is its first strength plus Voce's law at the shear of all systems so far, where systems harden each other alike; strengths never fall; the coefficients between systems are those the file gives for their modes; parameters that soften first are refused.", "quantifier": "every history of steps, number of systems, set of parameters", "why_tests_cant": "Histories and step sizes are unbounded.", "anchors": ["apps/micromechanics/EVPFFT/src/harden.cpp: harden", "apps/micromechanics/EVPFFT/src/data_crystal.cpp: data_crystal"]}
{"id": "C111", "title": "The correction in Fourier space restores equilibrium", "statement": "At every frequency the correction of the displacement gradient is that of a displacement, makes the stress of the reference medium divergence free and is the only one that does; there is no correction just where the stress is in equilibrium.", "quantifier": "every elastic reference medium, frequency and stress", "why_tests_cant": "Holds for all media and frequencies; uniqueness cannot be sampled.", "anchors": ["apps/micromechanics/EVPFFT/src/inverse_the_greens.cpp: inverse_the_greens", "apps/micromechanics/EVPFFT/src/evpfft.cpp: init_xk_gb"]}
{"id": "C112", "title": "The local iteration solves the constitutive law", "statement": "The matrix of the iteration is the derivative of its residual; a stress that obeys the elastic-viscoplastic law with the strain of its point is kept, and a stress a step keeps obeys the law; the iteration ends with a stress at every solid point; rigid rotation changes nothing; the accuracy does not depend on the unit of stress.", "quantifier": "every stiffness, strain, stress, step and set of systems", "why_tests_cant": "Derivatives and fixed points over the reals; termination for all inputs.", "anchors": ["apps/micromechanics/EVPFFT/src/evpal.cpp: evpal"]}
{"id": "C113", "title": "Mean stress and strain of the specimen are the means of the field", "statement": "The mean stress is that of all points however they are spread over processes; under strain control the mean displacement gradient after any history is the one imposed, and with a constant load the strain reported is that mean; the mean plastic strain is the mean of the points.", "quantifier": "every grid, number of processes, history of load steps and iterations, stress solver", "why_tests_cant": "Histories, grids and iteration counts are unbounded and the local solver is arbitrary.", "anchors": ["apps/micromechanics/EVPFFT/src/evpfft.cpp: evolve, init_disgradmacro", "apps/micromechanics/EVPFFT/src/step.cpp: step_update_disgrad, step_update_velgrad_etc, step_vm_calc", "apps/micromechanics/EVPFFT/src/get_smacro.cpp: get_smacro", "apps/micromechanics/EVPFFT/src/initialize_disgrad.cpp: initialize_disgrad"]}
{"id": "C114", "title": "Prescribed strain rates and stresses are honoured together", "statement": "The input passes just where each of the six components has either its strain rate or its stress prescribed; an imposed component of the mean strain is never corrected; there is no correction left to make exactly where the prescribed stresses are attained.", "quantifier": "every set of flags, reference compliance, mean stress", "why_tests_cant": "All flag patterns and all elastic media.", "anchors": ["apps/micromechanics/EVPFFT/src/vpsc_input.cpp: vpsc_input", "apps/micromechanics/EVPFFT/src/get_smacro.cpp: get_smacro"]}
{"id": "C115", "title": "Equivalent strain and stress are von Mises's", "statement": "The equivalent values are norms of the deviator: independent of the axes, of rigid rotation and of change of volume, homogeneous, subadditive, zero for no change of shape alone, and equal to the axial value in a tensile test.", "quantifier": "every tensor, rotation and scale", "why_tests_cant": "All reals.", "anchors": ["apps/micromechanics/EVPFFT/src/vm.cpp: vm", "apps/micromechanics/EVPFFT/src/get_smacro.cpp: get_smacro", "apps/micromechanics/EVPFFT/src/step.cpp: step_vm_calc", "apps/micromechanics/EVPFFT/src/evpfft.cpp: evolve"]}
{"id": "C116", "title": "The crystal solver called from the finite element code loses no deformation", "statement": "Over any history of calls what the grid was run for and what is still kept back make up all the deformation and time asked for; what is kept back is below the threshold; in between the stress follows the tangent of the last solution.", "quantifier": "every history of calls, threshold, grid solver", "why_tests_cant": "Histories of calls are unbounded.", "anchors": ["apps/micromechanics/EVPFFT/src/main.cpp: solve", "apps/micromechanics/EVPFFT/src/Fierro-EVPFFT-Link/FierroEVPFFTLink.cpp", "apps/micromechanics/EVPFFT/src/evpal.cpp: evpal"]}
{"id": "C117", "title": "The Fourier correction of the whole field keeps the mean and restores equilibrium", "statement": "The correction the solver adds to the displacement gradients of all points has no mean, is the gradient of a displacement that repeats with the cell, and makes the stress of the reference medium divergence free; the field is left alone exactly where the stress is in equilibrium, a uniform stress among others; so the mean strain after any history is the imposed one.", "quantifier": "every size of grid, cell, elastic reference medium, stress field and history", "why_tests_cant": "Sums over grids of any size; existence of a displacement and uniqueness cannot be sampled.", "anchors": ["apps/micromechanics/EVPFFT/src/forward_backward_fft.cpp: forward_fft, backward_fft", "apps/micromechanics/EVPFFT/src/inverse_the_greens.cpp: inverse_the_greens", "apps/micromechanics/EVPFFT/src/evpfft.cpp: evolve, init_xk_gb", "apps/micromechanics/EVPFFT/src/heffte_fft.h"]}
{"id": "C118", "title": "The quadrature rules integrate polynomials", "statement": "Gauss-Legendre rules of n points integrate every polynomial of degree at most 2n-1, and Gauss-Lobatto rules every polynomial of degree at most 2n-3, over [-1,1]; points are distinct, ordered, mirrored and inside the interval, weights positive; the points of an element of order p integrate every polynomial of degree below 4p in each variable over the cube.", "quantifier": "every number of points in the tables, every polynomial of the degree, every order and every schedule of the parallel loops", "why_tests_cant": "Polynomials with all real coefficients; the digits of the tables are checked against the exact moments with an error bound.", "anchors": ["apps/multiphysics/src/common/include/ref_quadrature.hpp: lobatto_nodes_1D, lobatto_weights_1D, legendre_nodes_1D, legendre_weights_1D", "apps/multiphysics/src/common/include/ref_elem.hpp: init"]}
{"id": "C119", "title": "The basis of the reference element reproduces polynomials and their gradients", "statement": "At every quadrature point the kinematic basis returns the value and the gradient of every polynomial of degree at most p in each variable from its values at the nodes, the thermodynamic basis the value of every polynomial of degree at most p-1; the basis sums to one, its gradients to zero, and each function is one at its node and zero at the others.", "quantifier": "every order from one to nine, polynomial, quadrature point and schedule", "why_tests_cant": "All polynomials and their derivatives, not samples of them.", "anchors": ["apps/multiphysics/src/common/include/ref_elem.hpp: init, get_basis, partial_xi_basis, partial_eta_basis, partial_mu_basis, lagrange_basis_1D, lagrange_derivative_1D"]}
{"id": "C120", "title": "The reference element is filled without an access out of range and independently of the schedule", "statement": "For every order but zero the element is built with every access in range; all its arrays are the same for every order of the iterations of the parallel loops; points and nodes are numbered with the first direction fastest.", "quantifier": "every order, every two schedules of every parallel loop", "why_tests_cant": "Schedules and orders are unbounded.", "anchors": ["apps/multiphysics/src/common/include/ref_elem.hpp: init, lobatto_rid, legendre_rid, dof_rid"]}
{"id": "C121", "title": "The polar decomposition of a deformation is one", "statement": "For a deformation F that turns no vector by a right angle, the decomposition returns a symmetric positive stretch V and a rotation R with F = V R; it returns whenever the stretch is not extreme, divides by zero for none, and gives back a rotation by less than a right angle unchanged.", "quantifier": "every 3x3 deformation gradient of the kind", "why_tests_cant": "An iteration with a stopping test over all real matrices.", "anchors": ["apps/micromechanics/LS-EVPFFT/src/defgrad_dcmp.cpp: defgrad_dcmp, frobenius_norm", "apps/micromechanics/LS-EVPFFT/src/math_functions.h: invert_matrix"]}
{"id": "C122", "title": "The deformation gradients of the large-strain solver stay consistent", "statement": "After any number of load steps, at every point: the volume ratio kept is the determinant of the deformation gradient and positive, the inverse kept is its inverse, the total deformation is the elastic after the plastic one, and the volume weights are positive and sum to one; plastic flow by slip keeps the plastic volume, and a rigid spin of the specimen keeps all volumes.", "quantifier": "every grid, field, loading and number of steps and passes", "why_tests_cant": "Histories of any length over all real fields.", "anchors": ["apps/micromechanics/LS-EVPFFT/src/update_defgrad.cpp: update_defgrad", "apps/micromechanics/LS-EVPFFT/src/update_defgradp.cpp: update_defgradp", "apps/micromechanics/LS-EVPFFT/src/update_defgrade.cpp: update_defgrade", "apps/micromechanics/LS-EVPFFT/src/matrix_exp.cpp: matrix_exp", "apps/micromechanics/LS-EVPFFT/src/determinant33.cpp: determinant33", "apps/micromechanics/LS-EVPFFT/src/evpfft.cpp: init_defgrad, evolve"]}
{"id": "C123", "title": "The specimen is deformed by the prescribed mean velocity gradient", "statement": "The mean velocity gradient over the present volume equals the reported one after every step, and the prescribed one where all components are prescribed; in every step the specimen is deformed by the velocity gradient prescribed for that step; a uniform stress drives no correction.", "quantifier": "every grid, field, sequence of prescribed velocity gradients and number of steps", "why_tests_cant": "Histories of any length; the corrections of any Fourier pass.", "anchors": ["apps/micromechanics/LS-EVPFFT/src/initialize_velgrad.cpp: initialize_velgrad", "apps/micromechanics/LS-EVPFFT/src/update_defgrad.cpp: update_defgrad", "apps/micromechanics/LS-EVPFFT/src/step.cpp: step_update", "apps/micromechanics/LS-EVPFFT/src/get_smacro.cpp: get_smacro", "apps/micromechanics/LS-EVPFFT/src/Cauchy_to_PK1.cpp: Cauchy_to_PK1", "apps/micromechanics/LS-EVPFFT/src/evpfft.cpp: evolve"]}
{"id": "C124", "title": "The grid written is the deformed grid", "statement": "Opposite faces of the cell are apart by the mean deformation; processes agree on the nodes they share; the positions written are those of the nodes, in the unit of the cell, do not depend on the number of processes, and show a uniform deformation as uniform.", "quantifier": "every grid, split over processes and sequence of steps", "why_tests_cant": "Any number of processes, cells and steps.", "anchors": ["apps/micromechanics/LS-EVPFFT/src/update_grid_velgrad.cpp: update_grid_velgrad", "apps/micromechanics/LS-EVPFFT/src/write_micro_state.cpp: write_micro_state_pvtu", "apps/micromechanics/LS-EVPFFT/src/evpfft.cpp: init_defgrad"]}
{"id": "C125", "title": "Stress and stiffness turn with the material", "statement": "After a step the stress of a solid point is turned by the rotation of its elastic increment; a rigid rotation of the material turns the stress by exactly that rotation; the stiffness in use is that of the crystal turned by the elastic rotation, so that it answers a turned strain with the turned stress.", "quantifier": "every point, deformation, stress and stiffness", "why_tests_cant": "Frame indifference is a statement about all rotations.", "anchors": ["apps/micromechanics/LS-EVPFFT/src/update_defgrade.cpp: update_defgrade", "apps/micromechanics/LS-EVPFFT/src/update_el_stiff.cpp: update_el_stiff", "apps/micromechanics/LS-EVPFFT/src/defgrad_dcmp.cpp: defgrad_dcmp"]}
{"id": "C126", "title": "The local iteration of the large-strain solver solves the law of the material", "statement": "At a solid point the iteration for the stress uses the true slope of its residual; a stress whose change over the step is the elastic answer to the rate of deformation less the flow is left as it is, is the only such stress, and where the iteration stands still it has found it. Steps that make the residual worse are halved. The iteration always gives a stress, changed by at most 1e-10 in the last iteration unless a hundred were needed. Spin does not enter.", "quantifier": "every crystal or isotropic material, stiffness, stress, rate of deformation and time step", "why_tests_cant": "The law is nonlinear and the properties hold over a continuum of stresses and materials; the search is a nested loop.", "anchors": ["apps/micromechanics/LS-EVPFFT/src/evpal.cpp: evpal"]}
{"id": "C127", "title": "Phases without slip systems flow by the power law of von Mises", "statement": "Such a phase flows along the deviator of the stress, without change of volume, independent of pressure and of direction, loses energy, flows not less under more stress, and at a von Mises stress equal to its strength at its reference rate. Its strength follows Voce's law of the accumulated equivalent plastic strain and never falls. The numbers of its file are converted by the scales given for stress and time like those of any phase.", "quantifier": "every material, stress, rotation and history of steps", "why_tests_cant": "The law is a nonlinear function of a tensor and the history is unbounded.", "anchors": ["apps/micromechanics/LS-EVPFFT/src/evpal.cpp: evpal", "apps/micromechanics/LS-EVPFFT/src/harden.cpp: harden", "apps/micromechanics/LS-EVPFFT/src/data_crystal.cpp: data_crystal"]}
{"id": "C128", "title": "The reference medium moves with the specimen", "statement": "The stiffness used at a point answers a velocity gradient with the true stress that goes with the nominal stress of the undeformed medium, and its Green operator answers a true stress likewise; together they are the operators of the undeformed medium; without deformation they are those. The medium stays stable. The Green operator of a point is what a change of the stress there alone does to the gradient there. The conversion to the units of the iteration is undone after it.", "quantifier": "every reference medium, deformation, velocity gradient, stress and grid", "why_tests_cant": "Fourth order tensors and a transform over a grid of any size.", "anchors": ["apps/micromechanics/LS-EVPFFT/src/calc_c066mod.cpp: calc_c066mod", "apps/micromechanics/LS-EVPFFT/src/calc_Goperr0.cpp: calc_Goperr0", "apps/micromechanics/LS-EVPFFT/src/evpfft.cpp: init_c0_s0, deinit_c0_s0"]}
{"id": "C129", "title": "Axisymmetric time steps and outputs", "statement": "Every step of the RZ solver is at most dt_max, 1.1 times the last step, the remaining time and the time to the next output, and a sound wave crosses at most dt_cfl of the distance between any two nodes of an element that is not eroded (or the step is dt_min). Time advances by a fixed minimum every cycle, the final time is reached with enough cycles, and outputs are written at the start, in order, when due and at the end. Moving or reflecting the body along the axis does not change the step.", "quantifier": "every time option, mesh, sound speeds, erosion and number of cycles and materials", "why_tests_cant": "The run is an unbounded loop over arbitrary meshes.", "anchors": ["apps/multiphysics/src/Solvers/SGH_solver_rz/src/time_integration_rz.cpp: get_timestep_rz", "apps/multiphysics/src/Solvers/SGH_solver_rz/src/sgh_execute_rz.cpp: execute"]}
{"id": "C130", "title": "Result files of the spectral solver", "statement": "Every array of a .vtu file is found at its offset with the announced type and length, the counts are those of the local box, every voxel has one cell and its own values, the cell's eight points are the corners of the voxel in the order VTK expects, the .pvtu file announces the arrays and names the files that the ranks write, and the corners lie where the mean deformation gradient puts them.", "quantifier": "every box size, field values, rank count, step, voxel size and deformation gradient", "why_tests_cant": "The layout of an appended binary file depends on every size; a test reads a few.", "anchors": ["apps/micromechanics/EVPFFT/src/write_micro_state.cpp: write_micro_state_pvtu"]}
{"id": "C131", "title": "Shared binary files of the ranks", "statement": "Ranks that hold the boxes of a grid write one file with every value at its place in the grid, whatever the decomposition, ghost layers and order of the ranks, and a rank reading the file gets the values of its box with its ghost layers untouched; HDF5 selections choose the same places. Text output prints all the values, and the texture file all the points.", "quantifier": "every grid, decomposition, ghost width, order of ranks, file offset and contents", "why_tests_cant": "Decompositions and orders of arrival cannot be enumerated.", "anchors": ["apps/micromechanics/EVPFFT/src/manager_mpi_io.h: Manager_MPI_IO", "apps/micromechanics/EVPFFT/src/hdf5_io_functions.h", "apps/micromechanics/EVPFFT/src/write_texture.cpp: write_texture"]}
{"id": "C132", "title": "Fields and colours in the result files", "statement": "The elastic strain written gives the stress written through the stiffness of the point, strain and plastic rate are symmetric parts, every von Mises number is that of the tensor beside it, and the colour of a crystal is three bytes that show where the third sample direction lies in its axes.", "quantifier": "every stiffness, stress, strain, plastic rate and crystal orientation", "why_tests_cant": "Fields are computed per voxel from arbitrary tensors and orientations.", "anchors": ["apps/micromechanics/EVPFFT/src/write_micro_state.cpp: write_micro_state_pvtu, calculate_eel, calc_IPF_colors", "apps/micromechanics/EVPFFT/src/vm.cpp", "apps/micromechanics/LS-EVPFFT/src/write_micro_state.cpp: calc_IPF_colors"]}
{"id": "C133", "title": "Loading a sample through its surface", "statement": "When a sample inside a frame is loaded through its surface, the nodes that get a velocity are exactly the nodes of the sample's surface, two of them move relative to each other as the prescribed velocity gradient says for the shape the sample has reached, and the sample does not drift.", "quantifier": "every grid, frame width, sample side, node and history of velocity gradients and time steps", "why_tests_cant": "Grids, frame widths and histories are unbounded; a test uses one cube.", "anchors": ["apps/micromechanics/LSNP-EVPFFT/src/calc_vel_boundary_lin_el.cpp: calc_vel_boundary_lin_el", "apps/micromechanics/LSNP-EVPFFT/src/calc_velvert.cpp", "apps/micromechanics/LSNP-EVPFFT/src/update_xvert.cpp", "apps/micromechanics/LSNP-EVPFFT/src/evpfft.cpp: init_Xvert, solve"]}
{"id": "C134", "title": "Velocities between the given ones", "statement": "A node that has a given velocity keeps it, and every other node gets the mean of the given velocities weighted with the inverse fourth power of its distance to them, the grid closing on itself, so no interpolated velocity leaves the range of the given ones.", "quantifier": "every grid, set of given nodes and velocities", "why_tests_cant": "The interpolation is a convolution over the whole grid.", "anchors": ["apps/micromechanics/LSNP-EVPFFT/src/calc_wfhat.cpp: calc_wfhat", "apps/micromechanics/LSNP-EVPFFT/src/calc_eigenvelgradref.cpp: calc_eigenvelgradref"]}
{"id": "C135", "title": "Gradient and velocity on the grid", "statement": "The velocity gradient of a voxel is the mean of the differences along its edges, the velocity recovered from it is the one it came from up to its mean, and a uniform gradient gives the matching uniform motion.", "quantifier": "every grid size, velocity field and gradient", "why_tests_cant": "The transforms run over whole grids and all frequencies.", "anchors": ["apps/micromechanics/LSNP-EVPFFT/src/calc_eigenvelgradref.cpp: calc_eigenvelgradref", "apps/micromechanics/LSNP-EVPFFT/src/mod_frequency.cpp: mod_frequency", "apps/micromechanics/LSNP-EVPFFT/src/calc_velocity.cpp: calc_velocity", "apps/micromechanics/LSNP-EVPFFT/src/allocate_memory.cpp"]}
{"id": "C136", "title": "Outer iteration, frame and moving nodes", "statement": "Every step ends with the surface error within its tolerance or at the pass limit, the frame stiffness never leaves its limit by more than one factor, the error is zero exactly when the surface moves as applied, a frame point at rest obeys the frame's law, and each grid node moves with its own point on every process.", "quantifier": "every limit, tolerance, sequence of errors, stiffness, velocity field, process and node", "why_tests_cant": "Histories of passes and decompositions are unbounded.", "anchors": ["apps/micromechanics/LSNP-EVPFFT/src/evpfft.cpp: evolve, solve", "apps/micromechanics/LSNP-EVPFFT/src/calc_vel_bc_error.cpp: calc_vel_bc_error", "apps/micromechanics/LSNP-EVPFFT/src/calc_IC0a_inv.cpp: calc_IC0a_inv", "apps/micromechanics/LSNP-EVPFFT/src/evpal.cpp: evpal", "apps/micromechanics/LSNP-EVPFFT/src/update_grid.cpp: update_grid"]}
{"id": "C137", "title": "Neural network strength model", "statement": "A material with the neural network strength model gets the stress that the network of its layers computes from the deformation: every output of a layer is the logistic function of the weighted sum of its inputs plus its bias, and no array is read out of range.", "quantifier": "every list of layer widths, weights, biases and inputs", "why_tests_cant": "Networks have unbounded sizes and real weights.", "anchors": ["apps/multiphysics/src/material_models/strength/host_ann_strength.hpp: forward_propagate_layer_host, HostANNStrengthModel::calc_stress, HostANNStrengthModel::init_strength_state_vars"]}
{"id": "C138", "title": "Surfaces turned into voxels", "statement": "The voxelizer fills a voxel when the centre lies inside the closed surface given by the facets, as seen along at least two of the three directions, leaves the others empty, finds the extent of the surface, and writes the voxels to the file in their order and place.", "quantifier": "every list of facets, every grid and every ray that meets no vertex", "why_tests_cant": "Surfaces have unboundedly many facets of any shape and the grid is of any size.", "anchors": ["legacy/Fierro_V0/src/Voxelizer/src/stl-to-voxelvtk.cpp: main_function, create_voxel_vtk, create_voxel_vtk_GUI"]}
{"id": "C139", "title": "Checkpoints for the adjoint", "statement": "With checkpoints, the adjoint pass of the topology optimization works at every cycle with the same states, time step and time as if every step of the forward solution had been kept, while at most the allowed number of states besides the first is held and no vector serves two of them.", "quantifier": "every problem, number of steps, allowed number of checkpoints, and everything the adjoint may do to the state that is carried along", "why_tests_cant": "The number of steps and checkpoints is unbounded, and which steps are kept, dropped and solved again depends on the whole history.", "anchors": ["legacy/Fierro_V0/src/Parallel-Solvers/dynamic_checkpoint.h: Dynamic_Checkpoint", "legacy/Fierro_V0/src/Parallel-Solvers/Parallel-Explicit/SGH_Solver/src/FEA_Module_SGH.cpp: sgh_solve", "legacy/Fierro_V0/src/Parallel-Solvers/Parallel-Explicit/SGH_Solver/src/sgh_optimization.cpp: checkpoint_solve, compute_topology_optimization_adjoint_full"]}
{"id": "C140", "title": "Boundary of a mesh in the parallel solvers", "statement": "The boundary patches are exactly the sides of the elements whose nodes, in whatever order, no other side has, each listed once in order with its element; the comparison of sides is a strict order that ties exactly on equal node sets; and a process that holds every element with a node of its own finds exactly the sides of the whole boundary that have a node of its own.", "quantifier": "every mesh of one element type, every numbering and order of nodes, every distribution of the nodes", "why_tests_cant": "The number of elements and the order in which sides meet are unbounded, and the result depends on the set's order being consistent for all of them.", "anchors": ["legacy/Fierro_V0/src/Parallel-Solvers/node_combination.h: Node_Combination", "legacy/Fierro_V0/src/Parallel-Solvers/node_combination.cpp: operator<", "legacy/Fierro_V0/src/Parallel-Solvers/Solver.cpp: Get_Boundary_Patches"]}
{"id": "C141", "title": "Limiters of the discontinuous Galerkin solver", "statement": "Limiting the density, specific volume, energy or velocity of an element pulls all its points towards the average by one common share between 0 and 1, so the weighted mean is kept; no limited value is outside the averages of the element and its neighbours by more than 1e-10; limited volumes of positive averages give positive densities; a field already among the averages is left alone; and limiting the velocity leaves no point with more kinetic than total energy.", "quantifier": "every limiter, every average and neighbours' averages, every number of points and their values", "why_tests_cant": "The averages, the values and the number of neighbours and points are unbounded, and the bounds must hold for all real values.", "anchors": ["legacy/single-node/src/Explicit-Lagrange/src/DG_solver/limit_density.cpp: limit_density", "legacy/single-node/src/Explicit-Lagrange/src/DG_solver/limit_specific_volume.cpp: limit_specific_volume", "legacy/single-node/src/Explicit-Lagrange/src/DG_solver/limit_energy.cpp: limit_energy", "legacy/single-node/src/Explicit-Lagrange/src/DG_solver/limit_vel.cpp: limit_vel"]}
{"id": "C142", "title": "Stand-alone mesh builder", "statement": "For a box or a cylinder of any counts and order in two or three dimensions the builder writes every point and every element exactly once, gives each element the points its order asks for, shares a point between elements exactly where they meet (also where a cylinder of a full turn closes on itself), puts every point at its place relative to the origin, refuses a cylinder of more than a full turn, and gives the element type of the order and dimension.", "quantifier": "all counts and orders from 1, all origins, lengths, radii and angles", "why_tests_cant": "Counts and orders are unbounded and positions are real; a wrong wrap shows only in the last row.", "anchors": ["legacy/Fierro_V0/src/Mesh-Builder/src/MeshBuilder.cpp: build_rectilinear, cylinder_transform, translate, MeshBuilder::build_mesh", "legacy/Fierro_V0/src/Mesh-Builder/include/MeshBuilderInput.h: Input_Rectilinear, Input_Cylinder"]}
