{"id": "C01", "title": "Vector reduction sums shared nodes exactly", "statement": "After a VectorReduction/PerformReduction of a field over the node ids each MPI rank declared, the value every rank holds for a node (per component, field size 1-3) equals the sum, over all ranks that declared that node, of the value that rank held before the call.", "quantifier": "every number of ranks, every assignment of duplicate-free node id lists to ranks (any order), all field values, every completion order reported by the non-blocking collectives", "why_tests_cant": "the number of sharing patterns is exponential in the number of ranks and the completion order of the non-blocking all-reduces is chosen by the MPI runtime", "anchors": ["src/nimble.mpi.reduction.h: reduction::ReductionInfo, fill_clique_lookup, PerformReduction", "src/nimble.mpi.reduction.cc: GenerateReductionInfo", "src/nimble.mpi.rank_clique_reducer.h: ReductionClique_t"]}
{"id": "C02", "title": "Reduction leaves private nodes untouched", "statement": "A node declared by exactly one rank is never communicated: its value is bit-for-bit unchanged by the reduction, and it never appears in any clique's index list.", "quantifier": "all rank counts, all duplicate-free id lists, all field values", "why_tests_cant": "frame condition over every sharing pattern", "anchors": ["src/nimble.mpi.reduction.h: ReductionInfo ctor, fill_clique_lookup"]}
{"id": "C03", "title": "Node cliques are exactly the sharing classes", "statement": "The clique table built from the gathered id lists gives two ids the same clique if and only if they are declared by exactly the same set of ranks; a clique number is <= the number of ranks iff the id is declared by one rank only; and every clique number is smaller than the returned clique count (so that the clique-colour table is never indexed out of bounds).", "quantifier": "all rank counts and all duplicate-free id lists", "why_tests_cant": "needs an argument over all sharing patterns; a collision between two fresh clique numbers would only show on specific patterns", "anchors": ["src/nimble.mpi.reduction.h: fill_clique_lookup"]}
{"id": "C04", "title": "All ranks create sub-communicators in one global order", "statement": "Every rank issues exactly the same sequence of collective communicator-split calls (same count, one per clique number), so the set-up cannot deadlock on mismatched collectives; and the communicators a rank keeps line up one-to-one with the clique numbers of its own nodes.", "quantifier": "all rank counts and id lists", "why_tests_cant": "deadlock depends on the whole set of ranks", "anchors": ["src/nimble.mpi.reduction.cc: GenerateReductionInfo"]}
{"id": "C05", "title": "The polling loop of a reduction finishes every clique exactly once for every schedule", "statement": "The loop that polls the outstanding reductions and removes finished ones by swapping with the back unpacks every clique exactly once, whatever subset of cliques the runtime reports as complete at each poll, and terminates as soon as every clique has been reported complete.", "quantifier": "all numbers of cliques, all schedules of completion answers", "why_tests_cant": "schedules are unbounded and chosen by the runtime", "anchors": ["src/nimble.mpi.reduction.h: ReductionInfo::Reduce"]}
{"id": "C06", "title": "Dense renumbering of global ids", "statement": "PackIDSpace renumbers global ids consistently over ranks: two ids on any ranks map to the same new id iff they were equal, and the new ids are exactly 0..k-1 with k the number of distinct ids.", "quantifier": "all rank counts, all id lists", "why_tests_cant": "injectivity over an unbounded family of id sets", "anchors": ["src/nimble.mpi.reduction_utils.cc: PackIDSpace"]}
{"id": "C07", "title": "Grouping consecutive equal keys", "statement": "Grouping by consecutive equal keys yields groups that concatenate back to the input, are non-empty, have one key each, and adjacent groups have different keys.", "quantifier": "all sequences and all key functions", "why_tests_cant": "all sequences", "anchors": ["src/nimble.mpi.reduction_utils.h: GroupConsecutive"]}
{"id": "C08", "title": "Serialization round-trips", "statement": "Unpacking a buffer produced by packing a value built from fixed-size scalars, pairs, vectors and arrays yields that value and consumes exactly the number of bytes that the size query announced.", "quantifier": "all nestings of the supported types and all values, at every buffer offset", "why_tests_cant": "unbounded nesting and sizes", "anchors": ["src/nimble.mpi.serialization.h: serialization::serial, pack, unpack"]}
{"id": "C09", "title": "Integration-point labels round-trip", "statement": "Removing the integration point prefix from a prefixed label returns the label, and reading the number back returns the integration point number; every prefixed label is recognised.", "quantifier": "all labels, all non-negative integration point numbers", "why_tests_cant": "unbounded strings and numbers", "anchors": ["src/nimble_data_utils.cc: AddIntegrationPointPrefix, RemoveIntegrationPointPrefix, LabelToIntegrationPointNumber, HasIntegrationPointPrefix"]}
{"id": "C10", "title": "Component labels match the field length and are distinct", "statement": "For every field length and dimension the list of component labels has exactly as many entries as the field has components, the k-th entry is the label of component k, and no two are equal (otherwise two output variables would collide).", "quantifier": "all labels, lengths, dimensions", "why_tests_cant": "all label strings", "anchors": ["src/nimble_data_utils.cc: GetComponentLabels, GetComponentLabel, LengthToInt"]}
{"id": "C11", "title": "Field registration assigns dense unique ids", "statement": "Allocating fields in any order gives ids 0,1,2,...; registering an already known field with the same relation and length returns its existing id and changes nothing; registering it with other attributes is rejected; looking up a field returns the id it was given, and -1 iff it was never registered under that spelling.", "quantifier": "all sequences of registrations", "why_tests_cant": "all histories", "anchors": ["src/nimble_model_data.cc: ModelData::AssignFieldId, GetFieldId, AllocateNodeData"]}
{"id": "C12", "title": "Sparse matrix storage behaves like a matrix", "statement": "A compressed-row matrix allocated from a sorted duplicate-free (row, column) list finds the storage slot of every listed entry by binary search, reads back the last value written, leaves other entries unchanged, and rejects entries outside the pattern; the sparse matrix-vector product equals the dense sum of entry times vector.", "quantifier": "all matrix sizes and sparsity patterns, including empty rows, all values", "why_tests_cant": "all patterns", "anchors": ["src/nimble_linear_solver.h: CRSMatrixContainer", "src/nimble_linear_solver.cc: AllocateNonzeros, FindIndex, MatVec"]}
{"id": "C13", "title": "Tangent sparsity pattern is exact", "statement": "The nonzero structure computed for a mesh lists exactly the pairs of degrees of freedom that belong to two nodes sharing an element, sorted by row and then column, without duplicates, and is symmetric.", "quantifier": "all meshes", "why_tests_cant": "all connectivities", "anchors": ["src/nimble_mesh_utils.cc: DetermineTangentMatrixNonzeroStructure"]}
{"id": "C14", "title": "Conjugate gradient reporting is sound", "statement": "The linear solver reports success only if the residual it tracked fell below the tolerance, never reports more iterations than the maximum, and in exact arithmetic the tracked residual is b - A x for the returned x. On every symmetric positive definite matrix it succeeds after at most as many iterations as there are unknowns, if that many are permitted. (A failure report does not mean that the solve did not converge, and an indefinite matrix can be reported as solved without iterating or lead to a division by zero: refuted corners.)", "quantifier": "all matrices, right-hand sides, tolerances and iteration limits", "why_tests_cant": "all systems", "anchors": ["src/nimble_linear_solver.cc: CG_SolveSystem"]}
{"id": "C15", "title": "LU decomposition solves the system", "statement": "In exact arithmetic, whenever the LU factorisation with partial pivoting completes, back-substitution returns a vector x with A x = b.", "quantifier": "all sizes, all matrices and right-hand sides", "why_tests_cant": "all matrices", "anchors": ["src/nimble_utils.h: LU_Decompose, LU_Solve, LU_SolveSystem"]}
{"id": "C16", "title": "Kinematic boundary conditions set exactly the prescribed values", "statement": "Applying kinematic boundary conditions sets the prescribed component of every node in the node set of each boundary condition (the last one listed wins) and changes no other entry of displacement or velocity.", "quantifier": "all boundary condition lists, node sets, fields and times", "why_tests_cant": "frame condition over all lists", "anchors": ["src/nimble_boundary_condition_manager.h: ApplyKinematicBC, ApplyInitialConditions"]}
{"id": "C17", "title": "Constrained rows of the tangent", "statement": "Modifying the tangent for kinematic boundary conditions leaves a constrained row with the requested diagonal and zeroes elsewhere, zeroes the constrained column, and leaves all unconstrained rows/columns unchanged; the same boundary conditions zero exactly the constrained entries of the right-hand side. Any boundary condition accepted at input, including traction ones, can be processed.", "quantifier": "all boundary condition lists and matrices", "why_tests_cant": "all lists", "anchors": ["src/nimble_boundary_condition_manager.h: ModifyTangentStiffnessMatrixForKinematicBC, ModifyRHSForKinematicBC"]}
{"id": "C18", "title": "Optimising an expression does not change its value", "statement": "The optimised form of a parsed expression evaluates to the same value as the unoptimised one for every time and position.", "quantifier": "all expression trees and variable values", "why_tests_cant": "all trees", "anchors": ["src/nimble_expression_parser.h", "src/nimble_expression_parser.cc: optimize"]}
{"id": "C19", "title": "Expression operator precedence", "statement": "A boundary condition expression is evaluated with the customary precedence and associativity (unary minus binds weaker than '^', '-' is left associative, '*' binds tighter than '+').", "quantifier": "all expression strings", "why_tests_cant": "all strings", "anchors": ["src/nimble_expression_parser.cc: ExpressionParsing"]}
{"id": "C20", "title": "File names of parallel runs are distinct", "statement": "For a run on several ranks each rank gets a different input/output file name, of fixed width for a fixed number of ranks, and the serial name carries no rank suffix. (Names containing white space are cut there and can collide: refuted corner.)", "quantifier": "all base names, rank counts and ranks", "why_tests_cant": "all rank counts", "anchors": ["src/nimble_parser.cc: IOFileName, IOFileNameThreadSafe"]}
{"id": "C21", "title": "Tokenizing", "statement": "Splitting a line into tokens yields the maximal runs of non-separator characters in order: tokens are non-empty and separator free, and no non-separator character is lost.", "quantifier": "all strings", "why_tests_cant": "all strings", "anchors": ["src/nimble_parser_util.h: tokenize_string"]}
{"id": "C22", "title": "Material parameters are read faithfully", "statement": "Parsing a material description assigns each named parameter the value that follows it, and unknown names or malformed (odd) lists are rejected rather than misread.", "quantifier": "all material strings", "why_tests_cant": "all strings", "anchors": ["src/nimble_material_factory_base.cc"]}
{"id": "C23", "title": "Command line switches select what they name", "statement": "Passing --use_kokkos / --use_tpetra / --use_vt / --use_uq turns on exactly that option.", "quantifier": "all subsets of switches", "why_tests_cant": "all combinations", "anchors": ["src/nimble_cli.cc"]}
{"id": "C24", "title": "String comparison", "statement": "StringsAreEqual is true exactly for equal strings.", "quantifier": "all pairs of strings", "why_tests_cant": "all pairs", "anchors": ["src/nimble_utils.h: StringsAreEqual"]}
{"id": "C25", "title": "3x3 inverse and determinant", "statement": "Inverting a full 3x3 tensor with non-zero determinant yields the two-sided inverse and returns the determinant; the symmetric/skew split of a tensor adds back to it; symmetric products agree with full matrix products.", "quantifier": "all real tensors", "why_tests_cant": "all tensors", "anchors": ["src/nimble_utils.h: Invert_Full33, Invert3x3, Sym/Skew products"]}
{"id": "C26", "title": "Hexahedron shape functions are a partition of unity", "statement": "At every point of the reference cell the eight shape functions sum to one, their derivatives sum to zero, and each is one at its own node and zero at the others.", "quantifier": "all reference points", "why_tests_cant": "all points", "anchors": ["src/nimble_element.cc: HexElement::ShapeFunctionValues, ShapeFunctionDerivatives"]}
{"id": "C27", "title": "Deformation gradient is exact for affine motions", "statement": "For nodes moved by an affine map y = A x + b from a non-degenerate reference element, the deformation gradient computed at each integration point is A; in particular it is the identity for rigid translations.", "quantifier": "all non-degenerate element shapes and all affine maps", "why_tests_cant": "all element shapes", "anchors": ["src/nimble_element.cc: HexElement::ComputeDeformationGradients"]}
{"id": "C28", "title": "Internal nodal forces are self-equilibrated", "statement": "The nodal forces an element returns for any stresses sum to zero, and the assembled internal force of a block sums to zero; for symmetric stresses the moments balance too.", "quantifier": "all element shapes, displacements and stresses, any number of elements, any order of accumulation", "why_tests_cant": "all shapes", "anchors": ["src/nimble_element.cc: HexElement::ComputeNodalForces", "src/nimble_block.cc: ComputeInternalForce"]}
{"id": "C29", "title": "Lumped mass conserves mass", "statement": "The lumped nodal masses of an element sum to density times the element volume, and block assembly preserves the total.", "quantifier": "all element shapes, all connectivities", "why_tests_cant": "all shapes", "anchors": ["src/nimble_element.cc: HexElement::ComputeLumpedMass", "src/nimble_block.cc: ComputeLumpedMassMatrix"]}
{"id": "C30", "title": "Tangent stiffness matrix is symmetric and rigid-body free", "statement": "For a symmetric material tangent the element stiffness matrix is symmetric and maps rigid translations to zero; assembly preserves it.", "quantifier": "all element shapes and material tangents", "why_tests_cant": "all shapes", "anchors": ["src/nimble_element.cc: HexElement::ComputeTangent", "src/nimble_block_base.cc"]}
{"id": "C31", "title": "Elastic material consistency", "statement": "The elastic stress is zero at the undeformed state, linear in the strain, symmetric, and equals the material tangent applied to the strain.", "quantifier": "all moduli and deformation gradients", "why_tests_cant": "all values", "anchors": ["src/nimble_material.cc: ElasticMaterial::GetStress, GetTangent"]}
{"id": "C32", "title": "Explicit time integration", "statement": "The explicit integrator reproduces uniform motion exactly for zero forces, is the central-difference recurrence for any force history, and performs exactly the requested number of steps ending at the final time.", "quantifier": "all step counts, forces, masses", "why_tests_cant": "all histories", "anchors": ["src/integrators/explicit_time_integrator.cc: ExplicitTimeIntegrator::Integrate"]}
{"id": "C33", "title": "Contact skin is the exact boundary", "statement": "The contact skin of a set of blocks consists of exactly the element faces that belong to one element only; a face shared by two elements is never in it.", "quantifier": "all hexahedral meshes", "why_tests_cant": "all connectivities", "anchors": ["src/nimble_contact_manager.cc: SkinBlocks"]}
{"id": "C34", "title": "Faces on rank boundaries are removed from the skin on both sides", "statement": "After the ring exchange each rank keeps exactly those skin faces that appear on no other rank.", "quantifier": "all rank counts and face sets", "why_tests_cant": "all distributions", "anchors": ["src/nimble_contact_manager.cc: RemoveInternalSkinFaces"]}
{"id": "C35", "title": "Contact entity ids are unique", "statement": "Facet ids produced from (element id, face ordinal, triangle ordinal) are pairwise different and the three parts can be recovered.", "quantifier": "all element ids within the representable range", "why_tests_cant": "all ids", "anchors": ["src/nimble_contact_manager.cc: SkinBlocks, CreateContactNodesAndFaces"]}
{"id": "C36", "title": "Contact forces obey action and reaction", "statement": "The nodal forces a penalty contact pair adds sum to zero when the barycentric coordinates sum to one, and scattering them to the mesh preserves the total.", "quantifier": "all geometries, penalties and contact pairs, any order", "why_tests_cant": "all geometries", "anchors": ["src/nimble_contact_manager.h: PenaltyContactEnforcement", "src/nimble_contact_entity.h"]}
{"id": "C37", "title": "Point-triangle projection", "statement": "The projection returns barycentric coordinates that sum to one, a point of the triangle's plane whose offset from the node is parallel to the unit normal with signed length the gap, and reports contact only for points projecting inside the triangle with a small negative gap.", "quantifier": "all non-degenerate triangles and points", "why_tests_cant": "all geometries", "anchors": ["src/nimble_contact_manager.cc: Projection"]}
{"id": "C38", "title": "Contact face exchange round-trips", "statement": "Serialising the contact faces and reading the buffer back returns the geometry and id of every face in order.", "quantifier": "all lists of contact faces", "why_tests_cant": "all lists", "anchors": ["src/nimble_contact_entity.h: SerializeContactFaces, UnserializeContactFaces"]}
{"id": "C39", "title": "Contact bounding boxes enclose their entity", "statement": "The bounding box of a contact entity contains all its vertices and the centroid is their mean.", "quantifier": "all entities with non-negative inflation", "why_tests_cant": "all geometries", "anchors": ["src/nimble_contact_entity.cc: SetBoundingBox"]}
{"id": "C40", "title": "Mesh text files round-trip and usable", "statement": "Reading a mesh text file produced for a mesh returns the same mesh, and a mesh read from a text file can be written out again.", "quantifier": "all meshes", "why_tests_cant": "all meshes", "anchors": ["src/nimble_genesis_mesh.cc: ReadTextFile", "src/nimble_exodus_output.cc: InitializeDatabaseTextFile"]}
{"id": "C41", "title": "Mesh bounding box", "statement": "The bounding box of a mesh contains every node and each bound is attained.", "quantifier": "all meshes", "why_tests_cant": "all meshes", "anchors": ["src/nimble_genesis_mesh.cc: BoundingBox"]}
{"id": "C42", "title": "UQ parameter samples and closure", "statement": "Each sampled parameter equals nominal + range * sample; an approximate trajectory's force is the stated affine combination of the exact ones, and a combination with weights summing to one of equal forces is that force; the trajectory loop touches only existing trajectories.", "quantifier": "all numbers of parameters, samples and trajectories", "why_tests_cant": "all sizes", "anchors": ["src/uq/nimble_uq.cc", "src/uq/nimble_uq_model_data.cc"]}
{"id": "C43", "title": "Timers accumulate", "statement": "A timer's accumulated time is the sum of the closed start/stop intervals and never decreases; each stop reports the interval it closed.", "quantifier": "all sequences of start/stop calls and clock readings", "why_tests_cant": "all histories", "anchors": ["src/nimble_timer.h"]}
{"id": "C44", "title": "Material state is initialised as requested", "statement": "Every state variable of every integration point starts at its requested initial value and every deformation gradient at the identity.", "quantifier": "all blocks and requested initial values", "why_tests_cant": "all label sets", "anchors": ["src/nimble_block.cc: InitializeElementData"]}
{"id": "C45", "title": "Critical time step", "statement": "The critical time step of a block is the minimum over its elements, is positive for non-degenerate elements, and does not depend on where the mesh is located.", "quantifier": "all blocks", "why_tests_cant": "all meshes", "anchors": ["src/nimble_block_base.cc: ComputeCriticalTimeStep", "src/nimble_element.cc: ComputeCharacteristicLength"]}
{"id": "C46", "title": "Quasistatic convergence measure sees the whole residual", "statement": "The residual norm reported for convergence is zero only if every entry of the residual force vector is zero.", "quantifier": "all residual vectors", "why_tests_cant": "all vectors", "anchors": ["src/integrators/quasistatic.cc: ComputeQuasistaticResidual"]}
{"id": "C47", "title": "Array views tile the data", "statement": "Partitioning a vector by a list of sizes yields consecutive views that together cover it exactly, and the size of a view equals the number of elements it spans.", "quantifier": "all vectors and size lists", "why_tests_cant": "all sizes", "anchors": ["src/nimble.quanta.arrayview.h"]}
{"id": "C48", "title": "Input deck parsing", "statement": "Each 'key: value' line of the input deck is assigned to the option it names regardless of case and surrounding white space, comments and blank lines have no effect, and unknown keys are rejected.", "quantifier": "all input decks", "why_tests_cant": "all files", "anchors": ["src/nimble_parser.cc: ReadFile, ParseKeyValue"]}
{"id": "C49", "title": "Gather returns every rank's data", "statement": "Gathering the ranks' integer vectors on the root returns, for every rank, exactly the vector that rank passed.", "quantifier": "all rank counts and vector lengths", "why_tests_cant": "needs unequal lengths over any number of ranks", "anchors": ["src/nimble.mpi.mpicontext.h: mpicontext::gather"]}
{"id": "C50", "title": "Node output arrays", "statement": "The array written for an output label that names component k of one node field lists, node by node, exactly that component of the field's data.", "quantifier": "all dimensions, fields, labels and data arrays", "why_tests_cant": "all field tables", "anchors": ["src/nimble_model_data.cc: GetNodeDataForOutput, GetNodeDataComponent"]}
{"id": "C51", "title": "Logarithm of a rotation", "statement": "For the rotation by an angle in [0,pi] about any unit axis, the rotation-logarithm routine returns the angle times the axis's cross-product matrix; the half-turn routine returns a logarithm of a half turn whenever it returns. (Refuted near pi, where nothing is written, and for half turns about x, which abort.)", "quantifier": "all unit axes, all angles, any prior content of the output array", "why_tests_cant": "a continuum of axes and angles", "anchors": ["src/nimble_utils.h: Log_Rotation, Log_Rotation_Pi"]}
{"id": "C52", "title": "Baker-Campbell-Hausdorff series", "statement": "BCH(X,Y) returns X+Y+[X,Y]/2+([X,[X,Y]]+[Y,[Y,X]])/12-[Y,[X,[X,Y]]]/24 for all tensors, also when the first argument is symmetric-stored; for commuting tensors it is X+Y.", "quantifier": "all pairs of real 3x3 tensors, any content of scratch and output arrays", "why_tests_cant": "polynomial identity over all tensors", "anchors": ["src/nimble_utils.h: BCH, BCH_Sym33_Full33"]}
{"id": "C53", "title": "Eigen and polar decompositions", "statement": "The symmetric eigenvalue routine returns pairwise orthogonal vectors and eigenpairs of the tensor; the polar decomposition of a tensor F of positive determinant returns a symmetric positive definite V and a rotation R with V R = F.", "quantifier": "all symmetric tensors; all tensors of positive determinant", "why_tests_cant": "a continuum of tensors, including repeated and nearly repeated eigenvalues", "anchors": ["src/nimble_utils.h: Eigen_Sym33_NonUnit, Polar_Decomp, Cos_Of_Acos_Divided_By_3"]}
{"id": "C54", "title": "Volume averages of element data", "statement": "The volume average reports the element's volume and, for every quantity, the mean of the integration-point values weighted by their volumes; it lies between the smallest and the largest value and no other output entry is written.", "quantifier": "all non-inverted elements, any number of quantities, all values", "why_tests_cant": "a continuum of geometries and values", "anchors": ["src/nimble_element.h: ComputeVolumeAverage", "src/nimble_element.cc"]}
{"id": "C55", "title": "Neo-Hookean material", "statement": "The neo-Hookean stress returned for a deformation gradient F of positive determinant J is K/2 (J - 1/J) I + mu/J dev(J^(-2/3) F F^T); rotating the deformation rotates the stress; rigid rotations give no stress; an inverted deformation stops the program.", "quantifier": "all moduli and deformation gradients, any number of points", "why_tests_cant": "all values", "anchors": ["src/nimble_material.cc: NeohookeanMaterial::GetStress", "src/nimble_utils.h: Polar_Decomp"]}
{"id": "C56", "title": "Closest point of a contact triangle", "statement": "The closest-point projection of a node onto a non-degenerate triangle returns a point (of the triangle, up to the tolerance in its barycentric coordinates) no farther from the node than any point of the triangle, and labels it a face projection exactly when the node projects into the triangle at least the tolerance away from every edge.", "quantifier": "all non-degenerate triangles, all node positions, all positive tolerances", "why_tests_cant": "a continuum of positions", "anchors": ["src/nimble_contact_manager.cc: ContactManager::ClosestPointProjectionSingle"]}
{"id": "C57", "title": "Contact surfaces are represented faithfully", "statement": "Setting up contact from the skins keeps exactly the nodes of the contact faces at their mesh positions; every primary quadrilateral becomes four triangles around its centre with consecutive ids and the longest edge as length; every node of the secondary surface that no lower rank owns becomes exactly one contact node, with the exodus id of the node and the longest edge of its faces as length, and no node is a contact node on two ranks.", "quantifier": "all meshes, surfaces, partitions and numbers of ranks", "why_tests_cant": "all meshes and partitions", "anchors": ["src/nimble_contact_manager.cc: ContactManager::CreateContactEntities, CreateContactNodesAndFaces", "src/nimble.mpi.reduction.h: ReductionInfo::GetAllIndices"]}
{"id": "C58", "title": "Conservation and stability of the explicit scheme", "statement": "In an explicit run without prescribed motion, forces that sum to zero leave the momentum of every output unchanged and move the centre of mass uniformly; forces without resulting moment leave the angular momentum unchanged; for a linear symmetric force law the discrete energy never changes, and below the critical step length the velocities stay bounded for ever.", "quantifier": "all meshes, masses, force laws, numbers of steps", "why_tests_cant": "unbounded number of steps, all force histories", "anchors": ["src/integrators/explicit_time_integrator.cc: ExplicitTimeIntegrator::Integrate"]}
{"id": "C59", "title": "Prescribed motion in explicit runs", "statement": "In every output of an explicit run a prescribed displacement and a prescribed velocity have exactly the prescribed value at that time, and the reported velocity is the rate at which the node moves. (Refuted for prescribed displacements: the reported velocity is always 0.)", "quantifier": "all boundary conditions, times, numbers of steps", "why_tests_cant": "all histories", "anchors": ["src/integrators/explicit_time_integrator.cc: ExplicitTimeIntegrator::Integrate", "src/nimble_boundary_condition_manager.h: ApplyKinematicBC"]}
{"id": "C60", "title": "Copying and assigning boundary condition expressions", "statement": "A copy of an expression functor computes the same values as the original; assigning a text replaces the functor by that text's functor, and if the text is malformed the call throws and the functor keeps computing what it computed before.", "quantifier": "all expression texts and all functors", "why_tests_cant": "all texts, exception paths", "anchors": ["src/nimble_expression_parser.h: BoundaryConditionFunctor"]}
{"id": "C61", "title": "Each element block gets the material assigned to it", "statement": "After reading an input deck, the material description of block N is the one given by the last 'material parameters' line of the material named in the last 'element block: <name>_N <material>' line; asking for the block of a material returns the lowest-numbered block made of it; a block naming an undescribed material is rejected. (Blocks whose name has no numeric suffix are all merged into block 0: refuted corner.)", "quantifier": "all input decks, all block and material names", "why_tests_cant": "all decks", "anchors": ["src/nimble_parser.cc: BlockProperties, ParseKeyValue", "src/nimble_parser.h: GetModelMaterialParameters, GetBlockIdFromMaterial"]}
{"id": "C62", "title": "Boundary condition lines are read faithfully", "statement": "A boundary condition line '<type> <set> <coordinate> <number or quoted expression>' yields exactly that type, the id of the named node set (side set for tractions), that coordinate and that magnitude or expression; unknown types, unknown coordinates and a wrong number of quotes are rejected. (A line without its number is accepted with magnitude 0: refuted corner.)", "quantifier": "all lines, all tables of node and side sets", "why_tests_cant": "all strings", "anchors": ["src/nimble_boundary_condition.cc: BoundaryCondition::Initialize"]}
{"id": "C63", "title": "Blocks are found by name and id", "statement": "Asking a mesh whether a block of a given name exists, for its id, for the ids of a list of names, for a block's number of elements, its element type or the largest node id answers exactly according to the mesh's contents: a name is found iff some block has it, an unknown name is rejected when its id is asked for and skipped in the list query, the order of the names is kept. (A 2-D triangle block is reported as 'TRIANGLE:': refuted corner.)", "quantifier": "all meshes and all names", "why_tests_cant": "all meshes, all strings", "anchors": ["src/nimble_genesis_mesh.cc: GenesisMesh::HasBlock, GetBlockId, BlockNamesToOnProcessorBlockIds, GetNumElementsInBlock, GetElementType", "src/nimble_genesis_mesh.h: GetMaxNodeGlobalId"]}
{"id": "C64", "title": "Element data are kept per integration point and carried from step to step", "statement": "The deformation gradient, the stress and every state variable of every integration point of every element occupy their own cell of the block's container. In each evaluation of the internal force the material is handed exactly the values stored for that element at the end of the previous step and what it returns is stored for that element and no other; the order in which elements are processed does not matter, and over any number of load steps the material sees in each step exactly what its last evaluation of the previous step returned. (Blocks whose state labels differ only in case cannot be combined: refuted corner.)", "quantifier": "all blocks, numbers of elements and integration points, state labels, materials, processing orders, sequences of load steps", "why_tests_cant": "all histories and all schedules", "anchors": ["src/nimble_block.cc: Block::GetDataLabelsAndLengths, DetermineDataOffsets, ComputeInternalForceFunctor::operator(), ComputeInternalForce", "src/nimble_model_data.cc: DeclareElementData, AllocateElementData, EmplaceBlocks, AllocateInitializeElementData", "src/nimble_model_data.h: UpdateStates"]}
{"id": "C65", "title": "Element output", "statement": "Every output request that the set-up accepts can be served: a column named 'iptNN_label' holds, for every element, the value stored at that integration point; the column 'volume' holds the current element volume, and the column of any other quantity its average over the integration points weighted by their current volumes. (Asking for 'volume' twice leaves the first column at zero; two blanks in a row in the request stop the program: refuted corners.)", "quantifier": "all blocks, element data, element shapes and request texts", "why_tests_cant": "all texts and all data", "anchors": ["src/nimble_model_data.cc: SpecifyOutputFields, GetElementDataForOutput, WriteExodusOutput", "src/nimble_block.cc: ComputeDerivedElementData, DetermineDataOffsets"]}
{"id": "C66", "title": "Sample trajectories of an uncertainty quantification run", "statement": "In an explicit run with samples, every sample, exact or approximate, moves by the same leapfrog scheme as the nominal run, under its own force and the prescribed velocities, independently of the other samples: an exact sample's force is computed with its own moduli at its own displacement, an approximate one's is the stated combination. A sample at the nominal point (all sample values zero), or an approximate sample whose weights sum to one over the nominal run and such samples, has the same displacements, velocities and forces as the nominal run after any number of steps. (Prescribed displacements are not applied to samples: refuted corner.)", "quantifier": "all meshes, boundary conditions, masses, block forces, numbers of samples, blocks and time steps", "why_tests_cant": "all histories of a run", "anchors": ["src/uq/nimble_uq_model_data.cc: ComputeInternalForce, UpdateWithNewVelocity, UpdateWithNewDisplacement", "src/uq/nimble_uq.cc: ApplyClosure", "src/integrators/explicit_time_integrator.cc: Integrate", "src/nimble_boundary_condition_manager.h: ApplyInitialConditions, ApplyKinematicConditions"]}
{"id": "C67", "title": "Uncertain parameters and the samples file are read as written", "statement": "The i-th parameter named in the 'uq parameters' lines belongs to the i-th column of the samples file, its range is the number after its name, and parameters that are not named keep their nominal value in every sample; a samples file written as documented is read back exactly, whatever numbers of samples and parameters, and whatever the file, an accepted table has one row per sample, one value per parameter and one weight per exact sample plus one. (A file that ends early without a line end is accepted with its last line repeated; an empty file, or a parameter without a range, is undefined behaviour; a block whose material has no line of its own makes every force evaluation with exact samples undefined: refuted corners.)", "quantifier": "all texts, numbers of parameters, blocks and samples", "why_tests_cant": "all texts", "anchors": ["src/uq/nimble_uq.cc: ParseConfiguration, ParseBlockInput, ReadSamples, ScaleParameters", "src/uq/nimble_uq_model_data.cc: InitializeBlocks"]}
{"id": "C68", "title": "A successful quasistatic run has solved every load step", "statement": "A quasistatic run never makes an invalid access; if it reports success, every load step applied the prescribed displacements and velocities of its interval, ended in a displacement whose measured imbalance (minus the nodal force, held components excluded) is at most the relative tolerance times that of the step's start, held components where the conditions put them, and the output has exactly one record at the start and one after each load step whose output was asked for, with that step's time, displacement and force. Element data in the records are those of the step's last evaluation, which may be of a displacement with a larger imbalance than the reported one. (A limit of zero iterations fails every run, a negative one accepts every run unsolved, overlapping prescribed velocities add up: refuted corners.)", "quantifier": "all meshes whose ids are a permutation of 0..N-1, all internal force and tangent routines, boundary conditions, numbers of load steps, tolerances and iteration limits", "why_tests_cant": "all inputs and all histories of a run", "anchors": ["src/integrators/quasistatic_time_integrator.cc: Integrate, ComputeQuasistaticResidual"]}
{"id": "C69", "title": "Quasistatic runs on linear problems succeed", "statement": "If the nodal force is affine in the displacement, the tangents add up to its (symmetric) stiffness and that stiffness is positive definite on the unknowns that are not held, then a run with fewer than 1000 unknowns and an iteration limit of at least two never divides by zero and fails only if, in some load step, the tolerance is tighter than 21e-8 sqrt(hi/lo) times the Euclidean norm of the step's initial imbalance (lo, hi: bounds of the diagonal stiffness entries). (With a limit of one iteration a step that converges in one iteration is reported as a failure: refuted corner.)", "quantifier": "all linear problems, meshes, boundary conditions, numbers of load steps and tolerances", "why_tests_cant": "all inputs and all histories of a run", "anchors": ["src/integrators/quasistatic_time_integrator.cc: Integrate", "src/nimble_linear_solver.cc: CG_SolveSystem"]}
{"id": "C70", "title": "Device runs give the results of the sequential program", "statement": "In the device version of the model data, whatever order and interleaving the parallel loops run in, the set-up of an explicit simulation followed by any sequence of calls (writing displacements and velocities on the host, announcing them, evaluating the internal force, moving to the next step) succeeds exactly when the plain sequential program over whole arrays does, and shows the same displacements, velocities, forces, masses, deformation gradients and stresses; no parallel loop has a data race, no access leaves its array, and an internal force just computed has no resultant and no moment. (With separate host and device memories the reference coordinates never reach the device; materials with state variables cannot run on the device; a resize that keeps allocations of the right size makes blocks of equal size share work arrays: refuted corners.)", "quantifier": "all meshes of eight-node blocks, materials without state variables, schedules of every parallel loop and histories of calls", "why_tests_cant": "all schedules and all histories", "anchors": ["src/nimble_kokkos_model_data.cc: ModelData::InitializeBlocks, ComputeLumpedMass, ComputeInternalForce, UpdateStates, UpdateWithNewDisplacement, UpdateWithNewVelocity, GatherVectorNodeData, ScatterVectorNodeData", "src/nimble_kokkos_block.cc: Block", "src/nimble_element.h: HexElement::ComputeDeformationGradients, ComputeNodalForces"]}
{"id": "C71", "title": "Lumped masses and the critical time step on the device", "statement": "In the device version of the model data with shared memory, the set-up succeeds exactly when every element is well shaped; then the lumped masses add up to density times volume over all blocks, every node of an element of positive density has a positive mass, and the critical time step is the smallest of those of the blocks, whatever the schedule of the parallel loops.", "quantifier": "all meshes, densities and schedules", "why_tests_cant": "all schedules and all meshes", "anchors": ["src/nimble_kokkos_model_data.cc: ModelData::ComputeLumpedMass, ScatterScalarNodeData", "src/nimble_kokkos_block.cc: ComputeCriticalTimeStep"]}
{"id": "C72", "title": "Fields allocated for the device are found again and never overlap", "statement": "After any sequence of supported allocations of node, element and integration point fields, two allocations have the same field id exactly when their labels are the same, the id of a label can be looked up, and every field not replaced by a later one for the same place and label is found on the host and on the device with its size and its initial contents; different fields, and the two steps of one field, never share memory, and the host and device copies of one field are the same memory exactly when the memory spaces are.", "quantifier": "all sequences of allocations", "why_tests_cant": "all histories", "anchors": ["src/nimble_kokkos_model_data.cc: ModelData::AllocateNodeData, AllocateElementData, AllocateIntegrationPointData, GetFieldId, GetHostScalarNodeData and the other getters", "src/nimble_kokkos_model_data.h: ModelData"]}
{"id": "C73", "title": "The contact command means what it says", "statement": "A contact command is accepted exactly when it consists of a primary-blocks key (either spelling), block names, a secondary-blocks key (either spelling), block names, the key penalty_parameter and anything after it; the block names are then exactly the words between the keys in order and the penalty is the number that follows; every other command is rejected by an exception. A command that ends with penalty_parameter is accepted although no penalty was given (refuted corner).", "quantifier": "all command texts", "why_tests_cant": "all texts", "anchors": ["src/nimble_contact_manager.cc: ParseContactCommand", "src/integrators/explicit_time_integrator.cc"]}
{"id": "C74", "title": "The picture of contact shows the contact entities", "statement": "The visualisation mesh of contact has, on every rank, one triangle per contact face with its three corners and one point per contact node, element ids equal to the entity ids, and no two nodes and no two elements with the same id over all ranks; at every later output each node of the picture gets its displacement from its first position and 1 or 0 for the contact status of its entity, and the global value is the number of faces in contact. Refuted corners: for entity ids above about 2^29 the node ids overflow; without exodus the picture can not be written as soon as there is a contact face.", "quantifier": "all numbers of ranks, all lists of contact faces and nodes with distinct entity ids, all later positions and statuses", "why_tests_cant": "all meshes and histories", "anchors": ["src/nimble_contact_manager.cc: InitializeContactVisualization, ContactVisualizationWriteStep, WriteVisualizationData, numActiveContactFaces"]}
{"id": "C75", "title": "Results written as text can be read back", "statement": "A results file started by the program for any declared variables, to which any number of steps has been appended, consists of its head and a text from which a reader who only knows the numbers of global variables, node variables and nodes recovers exactly the steps in order: the printed time, the printed global and node values, and for every block and element variable its name, its number in the list of variables in the head and its printed values; the variables in the head are distinct.", "quantifier": "all meshes, declared variables and sequences of steps that fit them, all ways of printing a number without a line break", "why_tests_cant": "all histories and all data", "anchors": ["src/nimble_exodus_output.cc: ExodusOutput::WriteStepTextFile, InitializeDatabaseTextFile"]}
{"id": "C76", "title": "Element output of the device code shows the fields as they are", "statement": "When the device version writes results, every column asked for in the output request appears exactly once, in the order of the request, with the numbers of the fields at that moment: nodal scalars and vector components, the volume of every element in its deformed position, the volume-weighted mean of a tensor over the points of every element, or the tensor at the requested point; for every block of the mesh and no other, independently of the schedules of the parallel loops and of how often results were written before. Writing changes no field at the nodes (on the host) or at the points, asking for output adds element fields only, and a write succeeds exactly when every column has an element field of the right type, every requested point is one of 1 to 8 (0 shows the element field as it is) and, if volumes or means are asked for, no element is inverted. The displacements used are those gathered at the last evaluation of the force.", "quantifier": "all field allocations, all contents of memory, all request strings, all schedules, any number of writes and changes in between", "why_tests_cant": "all schedules and histories, all contents", "anchors": ["src/nimble_kokkos_model_data.cc: ExodusOutputManager::SpecifyOutputFields, ComputeElementData, GetNodeDataForOutput, GetElementDataForOutput, ModelData::InitializeExodusOutput, WriteExodusOutput", "src/nimble_element.cc: HexElement::ComputeVolume, ComputeVolumeAverageSymTensor, ComputeVolumeAverageFullTensor"]}
{"id": "C77", "title": "Sums over the ranks by Tpetra", "statement": "In a run with Tpetra every call that sums a scalar or vector field over the ranks succeeds and gives every rank, for every node it declared, the sum of the values of all ranks holding the node, whatever calls came before, and leaves memory behind the declared nodes alone; the numbers are those of a run without Tpetra.", "quantifier": "all numbers of ranks, all distributions of nodes without repetition, all orders the library uses, all histories of calls", "why_tests_cant": "all distributions, schedules and histories", "anchors": ["src/nimble_tpetra_utils.cc: TpetraContainer::Initialize, VectorReduction", "src/nimble_tpetra_utils.h: SimpleTieBreak::selectedIndex", "src/nimble_vector_communicator.h: VectorCommunicator::VectorReduction"]}
{"id": "C78", "title": "The tangent matrix of Tpetra", "statement": "Allocating the tangent matrix of Tpetra gives an entry exactly for the pairs of degrees of freedom that some element couples, each once, with value 0; the reported number of nonzeros is their number; setting all values changes the values only; replacing the value of one entry changes that entry.", "quantifier": "all meshes with complete connectivity, all entries and values", "why_tests_cant": "all meshes", "anchors": ["src/nimble_tpetra_utils.cc: AllocateTangentStiffnessMatrix, TangentStiffnessMatrixNumNonzeros, TangentStiffnessMatrixSetScalar, TangentStiffnessMatrixReplaceValue", "src/nimble_tpetra_utils.h: TpetraMatrixContainer::SumIntoValue"]}
{"id": "C79", "title": "A whole run: exit code, files and finalisation", "statement": "The exit code of the program says what happened: bad arguments give the code of the argument parser, otherwise the input file was read and either every stage (mesh, data, blocks, output, integration) worked and the code is the one the integrator returned, or a stage threw an exception and the code is 1; in particular 0 means success. A run whose stages work does them once each in order, on files that no other rank opens, and finalises every library it initialised. Refuted corners: a run in which a stage throws finalises nothing; a rejected input file and a request for help without a file end the process by an uncaught exception; a second run in the same process (announced as possible by a comment) initialises a library twice.", "quantifier": "all arguments, input texts, ranks and outcomes of the stages, all ways of building the program (MPI, VT)", "why_tests_cant": "all inputs, failure points and build options", "anchors": ["src/nimble.cc: NimbleApplication::Run, InitializeSubsystems, FinalizeSubsystems, MainLoop, CreateIntegrator", "src/nimble_main.cc", "src/nimble_cli.cc: CommandLineConfiguration::ParseAndGetErrorCode"]}
{"id": "C80", "title": "Arithmetic on views of memory", "statement": "For views of rows of numbers lying one after another (the layout of all fields of the program) the statement y += a * x adds a times every entry of x to the same entry of y, the general form gives c * y + d * a * x for all coefficients, zero and copy set exactly the entries of the view, and no other memory changes, also when x is y or overlaps it from behind; entries are distinct cells. For any lengths and strides the sum works exactly when the product of first length and stride fits an int and that many numbers of both are in memory. Refuted corners: of a view with columns lying one after another only the first column is changed; of rows with room between them the room is overwritten too; if x begins before y and reaches into it, values already changed are used.", "quantifier": "all views, memories, coefficients", "why_tests_cant": "all lengths, strides and overlaps", "anchors": ["src/nimble_view.h: Viewify::operator(), zero, copy, operator+=, AXPYResult::assignTo"]}
{"id": "C81", "title": "Copies of an array handle share the array", "statement": "A program that declares, copies, moves, assigns and destroys array handles and reads and writes entries through them reads exactly what it would if variables were names of objects: a write through one handle is seen through all handles copied from each other and through no other, entries are distinct; the memory of an array is there exactly as long as some variable holds it, so nothing is freed twice or leaked. A negative number of entries throws. Refuted corner: a handle that was moved from still reaches the array, and freed memory after the array is gone.", "quantifier": "all sequences of operations on handles, all field types", "why_tests_cant": "all histories", "anchors": ["src/nimble_view.h: View"]}
{"id": "C82", "title": "Masses and forces do not depend on the distribution of the mesh", "statement": "However the elements of a mesh are distributed over ranks and blocks and however a rank numbers its nodes, after computing the lumped mass every rank holds at each of its nodes the row-sum mass of the whole mesh, and after computing the internal force the force of the whole mesh: the sum over all elements of the unique forces that do the work of the stresses (principle of virtual work). No rank fails under any schedule of the ranks, and every schedule can be completed.", "quantifier": "all meshes of well-shaped elements, all displacements that keep them so, all materials, all distributions over ranks and blocks, all schedules", "why_tests_cant": "all distributions and schedules", "anchors": ["src/nimble_model_data.cc: ModelData::ComputeLumpedMass, ComputeInternalForce", "src/nimble_block.cc: Block::ComputeLumpedMassMatrix, ComputeInternalForce", "src/nimble_vector_communicator.h: VectorCommunicator::VectorReduction"]}
{"id": "C83", "title": "An explicit run gives the same motion on every distribution of the mesh", "statement": "An explicit run on any number of ranks and any distribution of the elements over ranks and blocks writes, on every rank and after exactly the requested steps, the times, displacements, velocities, accelerations and internal forces of the undistributed mesh at the nodes of the rank: the central difference motion with the row-sum masses, the virtual-work forces and the boundary and initial conditions of the input applied in their order. No rank fails under any schedule and the run can always be finished.", "quantifier": "all meshes, materials without history, boundary conditions, numbers of steps, output frequencies, distributions and schedules for which no element inverts", "why_tests_cant": "all distributions, schedules and histories", "anchors": ["src/integrators/explicit_time_integrator.cc: ExplicitTimeIntegrator::Integrate", "src/nimble_model_data.cc: ModelData::ComputeLumpedMass, ComputeInternalForce", "src/nimble_boundary_condition_manager.h: ApplyInitialConditions, ApplyKinematicConditions", "src/nimble_vector_communicator.h: VectorCommunicator::VectorReduction"]}
{"id": "C84", "title": "The timing file of every run is kept and named by its time", "statement": "The time stamp shows the local date and time of day of the instant and its microsecond, in fields of fixed width, so the names of timing files of runs on equally many ranks are listed in the order of time, and two runs have the same name only if they have equally many ranks and ended in the same microsecond. After any history of runs the file of every run that wrote one, and was not followed by such a twin, is there and holds one line with the number of ranks and the five times in order; other files are as they were; only rank 0 writes, only if asked. Required: the local clock is never set back. Refuted corners: when it is (end of summer time) two runs an hour apart share a file and the first is lost; the stamp with milliseconds (unused) can go backwards.", "quantifier": "all time zones, instants from 1970 to 9999, numbers of ranks, times, histories of runs", "why_tests_cant": "all instants and histories", "anchors": ["src/nimble.quanta.stopwatch.h: stopwatch::get_microsecond_timestamp, get_millisecond_timestamp", "src/nimble_timing_utils.cc: TimingInfo::BinaryWrite", "src/integrators/explicit_time_integrator.cc: ExplicitTimeIntegrator::Integrate"]}
{"id": "C85", "title": "Contact with the bvh back end exerts every reported pair, whoever owns its node and face", "statement": "With the bvh library as contact back end (with or without ArborX inside), whatever (node, face) pairs the broadphase reports, on whichever rank they are examined and in whatever order the results are handed to the owners of the entities: every rank succeeds, the force on each of its nodes is the sum, over all reported pairs that touch, of the reaction on the pair's node if it owns the node and of the face's shares if it owns the face; an entity is marked in contact exactly if it touches in a reported pair; the forces of all ranks together sum to zero, also when a pair is reported twice. If the ArborX back end finds the same pairs, none twice, every node gets the same force from either back end. A single rank gets the forces and statuses of the serial back end. The entities made when contact is created meet what this asks of their numbering.", "quantifier": "all entities, distributions over ranks, lists of reported pairs and orders of delivery", "why_tests_cant": "all pairs, distributions and delivery orders", "anchors": ["src/contact/parallel/bvh_contact_manager.cc: NarrowphaseFunc::operator(), ArborXCallback, BvhContactManager::ComputeParallelContactForce", "src/contact/parallel/parallel_contact_manager.h: ParallelContactManager::ComputeContactForce", "src/nimble_contact_entity.h: SetNodalContactForces, ScatterForceToContactManagerForceVector"]}
{"id": "C86", "title": "Contact forces do not depend on the distribution of the contact surface over ranks", "statement": "However contact nodes and faces are distributed over ranks and however each rank numbers its nodes, adding up, over all ranks, the contact forces of the nodes that stand for one mesh node (as the reduction after the evaluation does) gives the force the serial back end computes at this node for the undistributed surface and the same reported pairs, whatever the ranks on which the pairs are examined and the order in which results are delivered.", "quantifier": "all surfaces, distributions, numberings, lists of reported pairs and delivery orders", "why_tests_cant": "all distributions and delivery orders", "anchors": ["src/contact/parallel/bvh_contact_manager.cc: BvhContactManager::ComputeParallelContactForce", "src/contact/serial/arborx_serial_contact_manager.cc: ArborXSerialContactManager::ComputeSerialContactForce", "src/nimble_contact_entity.h: ScatterForceToContactManagerForceVector"]}
