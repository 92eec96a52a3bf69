# Formal model of preCICE in Rocq

`/repo` is read as text and never built.  All Rocq sources are in
`rocq/theories` (logical name `Verif`).  Layout, per area:

* `Model/…` is not a directory: files are flat.  `M_*.v` = model (definitions
  only, each with a comment citing the modelled file and lines), `S_*.v` = the
  small specification used in theorem statements, `P_*.v` = proofs,
  `T_*.v` = the property theorems, their satisfiability examples and
  `Print Assumptions`.

## Modelling conventions

* **Time.** A time is an integer number of ticks (`Z`).  With a tick of
  2^-1074 every finite `double` is an integer, so all inputs are covered; the
  arithmetic is exact (no rounding, no overflow).  `utils/DoubleAggregator`
  (compensated summation) is modelled as exact addition.  The tolerance of
  `math/differences.hpp` (1e-14) is a parameter `eps >= 0`: theorems hold for
  every tolerance.
* **Values.** Field values and weights are an abstract type, `Z`, `Q` or `R`
  as the property needs.  Floating-point rounding is not modelled.
* **Errors.** `PRECICE_CHECK` and `PRECICE_ERROR` give an explicit error
  outcome.  `PRECICE_ASSERT` (disabled in release builds) also gives an explicit,
  distinct outcome; theorems that say "never fails" exclude both.
* **Processes.** Ranks and participants are programs over `send`/`receive`
  (`M_Net.v`), executed under two semantics: rendezvous and unbounded FIFO
  channels.  A run is an arbitrary interleaving; theorems are about every run.
* **Opaque parts.** Solver behaviour, acceleration results, convergence
  measures and mapping results are universally quantified inputs.

## Plan per property

| id | modelled | proof |
|----|----------|-------|
| C01-C12 | `BaseCouplingScheme` state machine, `TimeHandler`, tolerance comparisons | invariants by induction over histories |
| C13-C19 | Serial/Parallel/Multi schemes as communicating programs | confluence of the process calculus + lockstep induction over windows |
| C20 | `CompositionalCouplingScheme` over an arbitrary list of schemes, message traces of each call | invariant over all call histories |
| C21-C24 | `ParticipantImpl` API life cycle, `MultiLock`, mesh vertices, write/read buffers | invariant over API call sequences |
| C25-C29 | `time/Waveform`, degree 0/1 sampling (B-spline of degree 1) | invariant, algebra over `Q` |
| C30-C33 | serialization (`com/Serialized*`, ranges) | round-trip laws |
| C34-C39 | gather-scatter, point-to-point, reductions, ring set-up, shutdown, socket queue | process calculus / list algebra |
| C40-C44, C61 | nearest neighbor (also with gradients and at coordinates), nearest projection, linear cells, scaled mappings, barycentric coordinates, for any mesh and any search result | algebra over `Q`, induction over meshes |
| C45-C46 | relaxation and Aitken acceleration on waveforms | algebra |
| C47-C48, C62 | quasi-Newton bounds and bookkeeping of columns | algebra / invariant |
| C49-C50 | partition ownership and numbering | process calculus / list algebra |
| C51-C54 | mesh preprocessing, filtering, bounding boxes, quads | list induction / arithmetic |
| C55 | `DataContext::mapData` and its uses in `initialize` and `advance` | list induction, invariant over windows |
| C56 | B-spline of any degree on constant data | algebra |
| C57-C58 | connectivity calls and direct access of the API | invariant over API call sequences |
| C63-C64 | address files: single file and socket operations of all processes, crashes; file names | invariant over all interleavings, measure; text algebra |
| C65 | global RBF mappings, serial and with gathered data on any number of ranks; decompositions as parameters | linear algebra over Q, sums |
| C66 | partition-of-unity mappings: clusters, weights, consistent and conservative mapping, just-in-time reading and writing | sums over clusters, reduction to C65 for each cluster |
| C67 | bounding-box filter, tags of nearest-neighbour mappings, the partition of each rank | list induction, reduction to C49 for all schedules |
| C68 | QR factorization: Givens reflections, Gram-Schmidt, insertion and deletion anywhere, QR1/QR2 filters, backward substitution, over any field | loop invariants, dimension argument |
| C69 | IQN-ILS on values (`M_IQN`): preconditioners, difference matrices, QR factorization of C68, filters, windows, backups | invariant over all histories (columns are differences of consecutive iterations, the factorization is that of the weighted columns); least-squares from C68; span argument in dimension n for linear solvers |
| C70 | actions on stored samples (`M_Action`) inside the data handling of advance (`M_MapTime`) | induction over the samples and the lists of actions; sums over vertices and elements exchanged for the integral; induction over iterations for the refutation |
| C71 | a network of participants that run compositions of explicit schemes (`M_Fleet`, on top of `M_Comp` and `M_Cpl`), blocking and buffered sends | every participant follows a finite plan of messages (induction over the calls); invariant: the rest of all plans agree on every channel; somebody can go on because the earliest message in the timetable, or a pair of participants in a tree that wait for each other, is first in both plans |
| C72 | the tree that the parser builds from the callbacks of libxml2, and the matching of tags with mutable definitions (`M_Xml`) | the document fits the definition as an inductive relation; equivalence by induction over the document, with the state of the definitions (flags and last values) generalised |
| C73 | the readers of attribute values with the state machine of operator>> (`M_Value`), texts as lists of bytes | numbers as they are written (sign, groups, fraction, exponent) with their value; both directions by induction over the text and the parts of the number; escapes by induction over texts with some characters encoded |
| C74 | handleExports, exportInitial and exportIntermediate on top of the histories of `M_Cpl`; exporters as lists of records, table files as lists of headers, line breaks and cells; watch points and integrals over a list of ranks (`M_Watch`) | histories with their exports (`logged`); rows and records by induction over histories with the invariant of C01 to C12; tables by induction over the exports; integrals by induction over the ranks; the writing rank by induction over the distances |
| C75 | both geometric multiscale mappings as functions of coordinates and values, reads behind the end, failed checks and NaN explicit, squared distances instead of roots (`M_Geo`) | the bins by induction over the midpoints, the nearest vertex by induction over the vertices, the order by a sorted permutation, means by sums over shares, the error on equidistant vertices by the sum of odd squares |
| C76 | the reading of a file as one function from tags to the parts of the coupling schemes of all participants, with failed checks and failed assertions as separate results (`M_Wiring`) | invariants of the lists that grow while tags are read; the entries of a pair of participants as one fold over the exchanges at both ends, so that messages agree; induction over scheme tags |
| C77 | the writers of XML, legacy VTK and CSV files as functions from a mesh to the items sent to the stream (`M_Vtk`); separate readers of the formats (`S_Vtk`) | reader after writer: what each block of items adds to the words or to the tree that is read, by induction over lists; names by cutting at the last separator |
| C78 | the buffer of written data as flat memory, the calls that resize and write it, the sample given to the mapping (`M_Gradient`); the mapping of `M_Map` | by induction over the calls the memory holds the last block written to each vertex; then the formula of the mapping |
| C79 | the participant with the cache of read data and the buffer of written data, reads, writes and advances as operations (`M_Jit`), the mappings of `M_Map` and coarse graining, its function over the reals (`M_Lucy`) | by induction over the operations the cache is a sample of the current data and the buffer the sum of what was written since the last step; a primitive of the function |
| C80 | createClustering on lists of points with rational coordinates, distances by their squares, the searches as parameters (`M_Cluster`) | the nearest grid center is at most (1 - overlap) radius away from a point of the box, so the cluster has the point and its near input vertex and is kept |
| C81 | the members of IQNIMVJAcceleration and BaseQNAcceleration with vectors over a field, the results of filters, factorizations and decompositions as inputs of each call (`M_Imvj`) | an invariant of all histories: outside of the flagged states, the columns of Wtil are W - J V for the stored Jacobian |
| C82 | the ranks of the ring as a transition system with pending sends and receives (`M_Cycle`); the other products as sums over the ranks | an invariant that counts the messages each pair of neighbours has exchanged; the rank with the fewest posted messages is never blocked; a bounded measure that each step increases |
| C83 | the registry of events with its queue and its file, events as objects, the calls of the interface with whatever events happen inside (`M_Profile`); the file as a list of records, its text separately | an invariant: what is written followed by what is pending decodes to what happened; induction over the calls and the events inside |
| C84 | the time grids, the gathering of values into vectors and their way back into waveforms, over canonical rationals; interpolation and update are arbitrary (`M_Grid`) | an invariant: the grids are the relative positions of the first window placed in the current one; induction over data, steps and histories |
| C85 | all functions of the C and Fortran bindings with the memory behind their pointers, int and unsigned long arithmetic, on top of an arbitrary implementation of the interface (`M_Bind`) | call by call: the function of the binding follows the C++ call; then induction over programs |
| C86 | SVDFactorization with its QR decomposition over an arbitrary field; square roots and JacobiSVD are oracles that may have no answer (`M_SVD`) | invariant of the Gram-Schmidt loop (factorized so far, columns of Q orthogonal to whatever A is orthogonal to); product of blocks; induction over updates |
| C87 | all radial basis functions, their constructors, `pow_int` and the conversion of the attributes, over the reals (`M_Basis`) | every polynomial by its chain of derivatives down to a power of 1-p, hence positive and decreasing by the mean value theorem; the compact thin plate splines by three derivatives, apart on both sides of the numerical zero; the Gaussian by monotonicity of exp |
| C88 | the configuration of actions with the loop over subtags, the constructors, the participant's actions and Python actions, the script being any function (`M_ActConf`) | the loop over the subtags as a check of their numbers and a fold, by induction; unique names and numbers make the look-ups inverse to each other; induction over samples |
| C89 | the callbacks of `MappingConfiguration` with its members as a state, the loop over subtags, the creation of mappings and of RBF mappings on all executors and builds (`M_MapConf`) | the loop as two independent folds, one over basis functions and one over executors; no executor is left between tags as invariant; induction over the tags against a declarative relation between one tag and one mapping |
| C90 | the set of numbers, its loop and its use for meshes and data, with the overflow of int as undefined behaviour (`M_Ids`) | all numbers below the limit are taken as invariant; the loop ends because the set is finite; induction over the calls and over the tags |
| C59-C60 | connections, remeshing handshake and shutdown of any number of participants (with C38) | process calculus: links are served in lexicographic order |

## Trusted base

* The Coq 8.16.1 kernel.
* The axioms printed by `Print Assumptions`.  Every theorem file prints them for
  each of its theorems.  Nearly every theorem is "Closed under the global
  context": no axiom at all, neither ours nor of the standard library.  Only the
  examples `ex_roots`, `ex_exact` and `ex_history` of `T_QR` and `mirror_definite`,
  `ex_bounded` and `ex_numbers` of `T_IQN`, which show that the real numbers meet the
  hypotheses of C68 and C69, and the theorems of `T_Lucy` about the function of coarse
  graining (the four named `C79_kernel_...`) and of `T_Basis` about radial basis
  functions (all of C87, with its examples), use the standard library's axioms of the
  real numbers (`ClassicalDedekindReals.sig_forall_dec`, `sig_not_dec`,
  `FunctionalExtensionality.functional_extensionality_dep`; `C79_kernel_normalised`
  and the theorems of C87 also `Classical_Prop.classic`).
* The faithfulness of the model to `/repo` as described in the comments.

## Findings: claims that are false of the code

Each of these is a theorem with the suffix `_refuted` (or is named below) about
the model, with a concrete witness; the property theorem beside it states the
condition under which the claim does hold.

| id | finding |
|----|---------|
| C03 | Times within the tolerance of the window end: the end is reached although the sum of the steps differs from it (`C03_tolerance_refuted`). |
| C08 | Step limits hold up to the tolerance only. |
| C10 | An implicit scheme without convergence measure and without limit of iterations never completes a window (`C10_no_measure_unlimited_never_completes`). |
| C13 | A first participant whose step ends within the tolerance of the window end makes the two ends disagree (`C13_within_tolerance_refuted`). |
| C14 | A last window cut off by the end time (`C14_truncated_window_refuted`). |
| C17 | Two participants of a multi coupling that are not the controller and exchange data in both directions both send first: they deadlock if sends wait for the receiver (`C17_blocking_mutual_refuted`). The property holds for buffered sends, and for blocking sends if all data goes to or comes from the controller. |
| C20 | If the step that ends a window overshoots it by less than the tolerance, the composition compares `implicitTime < explicitTime` without tolerance and takes the converged implicit scheme to be iterating: explicit schemes skip the exchange and stay a window behind (`C20_in_step_with_tolerance_refuted`). Explicit windows that are no multiple of the implicit one only cause a warning; then explicit data is exchanged before convergence and sent twice for one window (`C20_unaligned_windows_refuted`). |
| C21 | After finalize(), mesh calls run into an assertion instead of an error, and the profiling calls are accepted (`C21_wrong_phase_reported_always_refuted`, `C21_nothing_after_finalize_refuted`). |
| C22 | A failing setMeshQuads() keeps the triangles of the quads before the wrong one (`C22_failed_attempt_changes_nothing_refuted`); repeated vertex IDs are an error in setMeshTriangle(), accepted in setMeshTriangles() and an assertion in setMeshTetrahedron() (`C22_degenerate_elements_rejected_refuted`). resetMesh() accepts received meshes, and an advance() that fails because remeshing was not at a window end has already added the time (both visible in `M_Api.v`). |
| C24 | A value written before resetMesh() in the same step is handed over for the new vertex with the same ID (`C24_values_do_not_survive_reset_refuted`). |
| C28 | `setAllSamples` and writing through `stamples()` keep a stale interpolation (`C28_stale_interpolation_refuted`). |
| C32 | Sending an empty connection map trips an assertion (`C32_empty_connection_map_refuted`). |
| C39 | A blocking send bypasses the queue and writes into the middle of an asynchronous send that was not waited for (`C39_blocking_send_refuted`); the handlers ignore errors, so that a failed send is reported as complete (`C39_failed_send_is_reported_refuted`); closing the connection drops messages that were not waited for (`C39_close_loses_messages_refuted`). |
| C44 | When the unscaled integral over the output mesh is zero the values are left as they are, and the integrals differ (`C44_zero_integral_refuted`). |
| C46 | If two successive residuals differ by a vector orthogonal to the old one the Aitken factor becomes zero (`C46_nonzero_factor_refuted`); it then stays zero for the rest of the simulation and the data is never changed again (`C46_zero_factor_is_kept`). |
| C47 | With several time steps per window only the first entries of the concatenated values are compared with the bounds, and with the wrong offsets: a value out of its bounds stays (`C47_substeps_refuted`). |
| C35 | With point-to-point communication a receiving rank none of whose vertices is held by a sending rank leaves its buffer as it is (PointToPointCommunication.cpp:633), with gather-scatter communication it gets zeros; when substeps are exchanged the buffer is uninitialised memory (SerializedStamples.cpp:40) (`C35_same_as_gather_scatter_refuted`). |
| C48 | If a filter deletes all columns of the current window the next column is counted for the window before, and columns of too many windows stay (`C48_deleted_window_refuted`); windows that converge in their first iteration do not count, so that columns can be arbitrarily old (`C48_age_of_columns_refuted`). |
| C49 | Two-level initialization without a geometric filter: two ranks whose boxes do not overlap both own a vertex outside both boxes that both need (`C49_two_level_outside_refuted`); at least one owner always exists. |
| C51 | Elements are compared by the place of their vertices, so that elements on coinciding vertices are lost (`C51_coinciding_vertices_refuted`). |
| C53 | `Mesh::clear` keeps the bounding box (`C53_smallest_after_clear_refuted`). |
| C54 | A quad whose first three corners are on one line is accepted; one of its triangles is flat (`C54_collinear_corners_refuted`). |
| C59 | The remeshing handshake is not passed on: in a chain A - B - C with a remeshing A, B reinitializes and C does not (`C59_handshake_agreement_refuted`). |
| C60 | An m2n tag that connects a participant with itself is accepted and blocks it forever (`C60_self_connection_refuted`). |
| C61 | In three dimensions nearest projection looks at edges only if no triangle is a candidate; it can take a triangle that is farther away than an edge (`C61_closest_element_refuted`). |
| C62 | If setting up the factorization anew rejects two columns, `removeMatrixColumn` is called with indices that are not shifted: other columns are removed from the matrices than from the factorization (`C62_rejected_columns_refuted`). A new column that cannot be inserted into the factorization trips an assertion without filter and with QR1, and reads out of range with QR3 (`C62_dependent_column_refuted`). With at least as many columns allowed as unknowns an assertion fails (`C62_few_unknowns_refuted`), as well as when the first window after a change of meshes converges in its first iteration (`C62_convergence_after_change_refuted`). |
| C63 | A requester can read the address file of a crashed earlier run before the acceptor detects it, and connects to whatever listens there (`C63_address_of_this_run_refuted`). A leftover temporary file is never removed and stops every later run (`C63_leftover_temporary_file_stops_every_run`); the error message for it lacks a format argument (ConnectionInfoPublisher.cpp:113) and reads "fmt_error". |
| C64 | Rank 11 for mesh "M" and rank 1 for mesh "M1" of a requester called "1" share a file (`C64_digits_refuted`); the clean-up of "A-B" and "C" removes the files of "A" and "B-C" (`C64_clean_up_refuted`); the rings of the quasi-Newton acceleration of two participants in one working directory share their files (`C64_rings_of_two_participants_refuted`). |
| C65 | Without polynomial an RBF mapping maps constants wrongly and conservative mappings change the sum (`C65_constants_without_polynomial_refuted`). On several ranks, if the filter drops vertices of the received mesh on every rank, the global number of vertices (set before the filter, ReceivedPartition.cpp 58/75) exceeds the size of the matrix and the mapping reads or writes out of range (RadialBasisFctMapping.hpp 264/367, `C65_filtered_vertices_refuted`); the code only warns about such vertices. |
| C66 | A vertex whose distance to a center is between radius - 1e-14 and radius gets a weight for this cluster but is not among its vertices: an assertion fails, or without assertions `_normalizedWeights` is written out of range (`C66_edge_of_a_cluster_refuted`). Written loads that no basis function of a cluster sees are dropped, because only the entries of the basis functions decide whether the cluster is evaluated (completeJustInTimeMapping), although the polynomial would conserve them (`C66_lost_loads_refuted`). |
| C67 | The geometric filter drops a nearest vertex outside the enlarged box without notice (`C67_nearest_vertex_outside_the_box_refuted`). A rank with a single vertex has a box without extent, which no safety factor enlarges: the run ends with an error asking to increase it (`C67_single_vertex_refuted`). With two-level initialization `no-filter` still drops the parts of remote ranks whose boxes do not overlap (`C67_two_level_without_filter_refuted`). |
| C69 | When the residual of an iteration is orthogonal to the new difference although the problem has exactly one solution, IQN-ILS repeats the same values; the next difference is a zero column, it is refused and the assertion on the number of columns fails (`C69_stagnation_refuted`: the solvers turn (x, y) into (x - y, x + y)). |
| C69 | The factors of a constant preconditioner are not checked against 0 by the configuration: the weights could not be undone. Re-initialization after remeshing keeps the weights of the old meshes at the front of the new vectors (`initializePrecond`). |
| C70 | multiply-by-area and divide-by-area also scale the sample at the start of the window, which was scaled before: without substeps once more in every iteration (`C70_window_start_refuted`: factor area^(k+1) after k iterations), with a read mapping in implicit coupling (`C70_mapped_window_start_refuted`), and for written data with write-mapping-post, where the wrong start is also sent (`C70_written_window_start_refuted`). |
| C70 | Summation ignores samples of later sources behind the last sample of the first source (`C70_later_samples_refuted`). If the times of the substeps change between iterations, the target keeps its old samples and storing an earlier time fails an assertion. |
| C70 | Areas are computed from the elements a rank holds, so at the border of a partition they are too small (`C70_area_in_parallel_refuted`); a vertex without elements divides by zero without a report. |
| C71 | A ring of serial-explicit couplings is accepted by the configuration and deadlocks in initialize (`C71_ring_refuted`). |
| C71 | Whether couplings deadlock can depend on their order in the configuration: A-B, A-C, B-C works, A-B, B-C, A-C deadlocks if a send waits for the receiver (`C71_order_refuted`). |
| C71 | A serial coupling that waits for its first window in initialize blocks the initial data of couplings configured behind it; this can deadlock although the couplings alone would not (`C71_initial_data_refuted`). |
| C72 | `areAllSubtagsConfigured` looks for a namespace in the flags of the tag itself, which only contain its own namespace: if alternatives like `<m2n:…>` were required, all of them would be required, although the message says `<m2n:...>` has to occur at least once (`C72_group_refuted`); and a required subtag with the namespace of its parent may be missing (`C72_namespace_refuted`). No tag of preCICE itself is defined in this way at present. |
| C72 | A limit of one holds for each full name: two different `<acceleration:…>` in one coupling scheme are both accepted by the parser (`C72_alternatives_refuted`). |
| C73 | A blank number is accepted: an integer keeps the value from the previous tag of this kind, a real number is read from an uninitialised variable (`C73_blank_refuted`). `if (!iss.eof())` does not notice that nothing was read. |
| C73 | If the locale en_US.UTF-8 exists, `0,5` is accepted and read as 5, because only eof is checked and not the failure that the grouping reports; on other machines it is rejected (`C73_comma_refuted`). |
| C73 | `-`, `.`, `1e` and `2.5e-` are accepted as 0 (`C73_broken_refuted`); integers that do not fit are replaced by the largest or smallest int (`C73_overflow_refuted`); `1/0` is accepted; misspelled Booleans are false (`C73_words_refuted`). |
| C73 | decodeXML decodes repeatedly: `&amp;lt;` becomes `<`, so a text like `&lt;` cannot be written (`C73_decode_twice_refuted`). |
| C74 | An exporter with every-iteration never writes its series file: exportIntermediate does `continue` before exportSeries (`C74_iteration_series_refuted`). |
| C74 | After remeshing, WatchIntegral::initialize runs again and adds the column SurfaceArea a second time; the second row after that fails an assertion, or is shifted by a column in release builds (`C74_remeshing_refuted`). |
| C74 | A rank with vertices but without edges adds an unscaled sum to a scaled integral (`C74_mixed_refuted`); if the primary rank has no edges, the area is computed but not written (`C74_area_refuted`); in 3D, edges without triangles make scaled integrals zero (`C74_edges_only_refuted`). |
| C74 | A watch point on a mesh without vertices dereferences a null pointer (`C74_nobody_refuted`); a rank that lost its vertices in remeshing keeps its old distance and vertices and may be chosen to write (`C74_stale_point_refuted`). |
| C75 | Spreading radially computes midpoints with the vertex of the next number instead of the next one in the order: it reads behind the end whenever any 1D vertex lies behind the last one (`C75_radial_order_refuted`), and gives wrong values otherwise, since positions in the order are used as vertex numbers; collecting does not use the order at all (`C75_radial_values_refuted`). |
| C75 | Radial mappings map component 0 only, whatever the axis; all others are zero (`C75_radial_spread`). A 1D vertex that is closest to no vertex gets NaN radially (`C75_radial_collect`) and zero axially (`C75_plane_collect`). |
| C75 | Vertices between 1 and 1.05 radii are accepted and get values of the opposite sign (`C75_profile_sign_refuted`). |
| C75 | 1D-2D with a parabolic profile and a square cross section is accepted and reads an empty vector of distances (`C75_line_square_refuted`). |
| C75 | 2D-3D parabolas vanish at the farthest vertex of each input vertex instead of the configured radius, and are NaN if all vertices lie on the input vertices (`C75_plane_rim_refuted`, `C75_plane_spread`); the square variant depends on the position of the origin (`C75_plane_square_moved_refuted`). |
| C75 | Spreading a parabola and collecting it does not give the value back, except for special distributions of vertices (`C75_axial_round_trip`, `C75_axial_round_trip_refuted`). |
| C76 | Multi schemes accept exchanges between participants without a connection (`C76_multi_connected_refuted`) and do not check substeps against the waveform degree (example `multi_degrees`). |
| C76 | An exchange may use a mesh of a third participant that both receive: no channel exists at either end (`C76_channel_refuted`). |
| C76 | A mesh may be received from a participant that does not provide it: the receiver waits for a mesh nobody sends (`C76_channel_ends_refuted`). |
| C76 | The same data may be received from two participants in two schemes (`C76_one_source_refuted`). |
| C76 | Just-in-time mappings need no data: `dataFound` is set outside the test (`C76_just_in_time_refuted`). |
| C76 | Participants may share a name (`C76_names_refuted`), write data of meshes they do not use (`C76_written_mesh_refuted`), and read data that comes from nowhere (`C76_read_comes_refuted`). |
| C76 | A file may be accepted by one participant and refused by another, since mapping constraints are checked against the size of the reader only (`C76_accepted_by_all_refuted`). |
| C76 | Mesh names used twice and convergence measures of unknown data run into assertions, in release builds into undefined behaviour (`C76_assertions_refuted`, example `unknown_measure`). |
| C77 | Legacy VTK files of 2D meshes contain the edges only, triangles are lost (`C77_vtk_triangles_refuted`). |
| C77 | VTP files contain no tetrahedra (`C77_vtp_tetrahedra_refuted`), CSV files no connectivity and no gradients (`C77_csv_connectivity_refuted`). |
| C77 | VTU, VTP and CSV files are written with the default precision of six digits: different vertices can coincide in the file (`C77_digits_refuted`); legacy files have 17 digits (`C77_vtk_exact`). |
| C77 | Data `A` with gradients and data `A_gradient` give two arrays of the same name (`C77_array_names_refuted`); mesh `A-B` of `C` and mesh `A` of `B-C` give the same file name (`C77_file_names_refuted`). |
| C77 | Names are not escaped: blanks break legacy files, semicolons CSV files, and quotes and ampersands XML files (`C77_text_refuted`). |
| C77 | The rank is declared Int32 in the listing and UInt32 in the pieces (`C77_rank_type_refuted`). |
| C78 | The gradient of vector data is documented as x dx, y dx, x dy, y dy, the mapping reads x dx, x dy, y dx, y dy: with the documented order the transposed Jacobian is used (`C78_vector_linear_refuted`). The exporters use the documented order (C77), so a file shows other derivatives than the mapping uses. |
| C78 | Initial data with zero values but nonzero gradients is mapped to zero: the test for zero samples does not look at the gradients (`C78_zero_values_refuted`). |
| C78 | Data written before `resetMesh` in a step stays in the buffer and appears at the first vertices of the new mesh (`C78_reset_mesh_refuted`). |
| C79 | Data written to a received mesh, with `writeAndMapData` or `writeData`, in the step at whose end meshes are exchanged again is lost, even if this mesh did not change: the exchange zeroes the buffer before it is stored (`C79_remesh_refuted`). |
| C79 | Coarse graining is only available as conservative, but does not preserve sums: whatever the function and radius, values written farther away than the radius from all vertices vanish (`C79_coarse_graining_total_refuted`). |
| C80 | With `project-to-input`, the default, clusters may leave out vertices, even if both meshes are the same; the mapping then stops with an error (`C80_projected_refuted`, `C80_error_iff`). |
| C80 | The configuration accepts a `relative-overlap` of 0, with which the corners of the grid are left out (`C80_no_overlap_refuted`), and negative ones or ones from 1 on, which trip assertions at best. |
| C80 | `vertices-per-cluster="1"` gives radius 0; infinity is then converted to an unsigned integer (`C80_one_vertex_per_cluster_refuted`). |
| C80 | If the input mesh is flat along an axis, the threshold for duplicates is 0 and projected clusters that coincide are all kept, so the same system is set up and solved several times (`C80_duplicates_refuted`). |
| C81 | Without reuse and forced relaxation, the default, the columns and Wtil of a window are still used in the first iteration of the next one although the Jacobian already has them: the correction is counted twice (`C81_first_iteration`, `C81_first_iteration_refuted`). |
| C81 | If that next window converges at once, the same pair is stored again and the Jacobian stays wrong (`C81_single_iteration`, `C81_single_iteration_refuted`). |
| C81 | If the first window converges at once, the default filter QR3 starts at column -1 of an empty factorization (`C81_qr3_first`). |
| C81 | RS-SLIDE drops everything but the columns of the last window (`C81_restart_slide`, `C81_restart_slide_refuted`). |
| C81 | RS-SVD keeps the decomposition of the last restart scaled with the weights of that restart; after new weights the Jacobian changes (`C81_restart_svd_refuted`). |
| C81 | always-build-jacobian does not put the differences of the last iteration of a window into the Jacobian (`C81_window_always`, `C81_window_always_refuted`). |
| C81 | Forced relaxation in restart mode: Wtil is not cleared, after a window with one update the stored pair does not fit (`C81_forced_relaxation_refuted`). |
| C81 | RS-LS with at most two unknowns removes its last column, which is an assertion (`C81_restart_ls_small`). |
| C83 | With flush-every from 1 to 9, the first records are flushed before the file is opened and are lost, with the names of events still running, so the file cannot be interpreted; with flush-every 1 and mode all the constructor runs into an assertion (`C83_flush_refuted`, `C83_flush_all_refuted`). |
| C83 | finalize without initialize leaves the section of the solver's initialization open for ever (`C83_uninitialized_refuted`). |
| C83 | A second participant in the same process discards pending records of the first one and takes over its events under other names (`C83_second_refuted`). |
| C83 | A slash in the name of a mesh or data is an assertion when they are used in a call that is profiled (`C83_slash`); a line break in the name of a section is accepted and makes the file ambiguous (`C83_newline_refuted`). |
| C84 | The steps of later windows are those of the first one: if it was done in one step, what a solver with adaptive steps writes inside later windows is discarded and replaced by interpolation, even if the acceleration changes nothing (`C84_adaptive_refuted`). |
| C84 | In a window so short that its steps are not further apart than the tolerance of times, steps are left out: values of one data take the place of those of another one and old values stay in the vectors (`C84_short_refuted`). |
| C85 | `precicec_getMaxTimeStepSize`, `precicec_setMeshAccessRegion`, `precicec_getMeshVertexIDsAndCoordinates`, `precicec_startProfilingSection` and `precicec_stopLastProfilingSection` do not check that the participant exists: without one, also after finalize, they dereference a null pointer (`C85_unchecked_refuted`). |
| C85 | A second `precicef_create` is accepted: it constructs a second participant next to the first one, then finalizes the first one; in C this is an error (`C85_recreate_refuted`). |
| C85 | Stripping an empty or blank Fortran text reads the character in front of it (`C85_blank_refuted`); names that end in a blank cannot be used in Fortran (`C85_trailing_refuted`). |
| C85 | The product of number and dimensions is computed as int and overflows, although the numbers of edges and triangles are not limited that way (`C85_count_refuted`). |
| C85 | The version in a Fortran text is filled up with NULs instead of blanks (`C85_version_refuted`). |
| C85 | `precicef_set_tetrahedron` has no trailing underscore and cannot be called from Fortran (`C85_symbol_refuted`). |
| C86 | A product with more columns than rows: the QR decomposition returns at the column whose number is the number of rows, without its coefficients and without shrinking Q and R. The columns from there on are lost, Psi gets zero columns, nothing is reported (`C86_wide_refuted`). |
| C86 | If the first product vanishes, no column remains and `_sigma(0)` is read from an empty vector in the assertion that follows, in builds with assertions (`C86_zero_refuted`). |
| C86 | With the filter of `setApplyFilterQR`, parts of the product are removed that are not counted in `getWaste` (`C86_filter_refuted`). IQN-IMVJ does not switch it on. |
| C87 | A Gaussian configured by a support radius is not zero there but 1e-9, and jumps to zero behind: `constructRBF` passes the shape parameter only, so the shift of the class that would make it continuous is never used (`C87_cutoff_refuted`). |
| C87 | `support-radius="0"` is accepted for the Gaussian, the shape parameter becomes infinite and the function is not a number at distance 0; every other function refuses the radius (`C87_zero_radius_refuted`). |
| C88 | `action:python` without `source-data`, which is documented as optional: `sourceDataIDs.back()` of an empty vector (`C88_no_source_refuted`). |
| C88 | `action:python` without `path`, documented as the current path: the empty path is no directory, the action is refused (`C88_no_path_refuted`). |
| C88 | `action:python` without `target-data`, documented as optional: `performAction` dereferences a null pointer (`C88_no_target_refuted`); with a module without `performAction`, a null function is called after a warning (`C88_no_function_refuted`). |
| C88 | A build without Python accepts `action:python` up to an assertion, in release builds a null pointer is stored as action (`C88_no_python_refuted`). |
| C88 | `target-data name=""` counts as not given; the area actions look up data number -1 (`C88_empty_target_refuted`). |
| C89 | `mapping:rbf` has the attributes `x-dead`, `y-dead`, `z-dead`, but always yields a partition of unity mapping, which does not get them (`C89_alias_dead_refuted`). |
| C89 | `mapping:rbf` uses 100 vertices per cluster and an overlap of 0.3, `mapping:rbf-pum-direct` without attributes 50 and 0.15 (`C89_alias_clusters_refuted`). |
| C89 | Several different executors in one mapping are accepted, the last one is used (`C89_executors_refuted`). |
| C89 | `n-threads="-1"` is accepted and becomes 4294967295 (`C89_threads_refuted`). |

## What is modelled, file by file

* `M_Net` process calculus (ours); `M_Time`, `M_Cpl`:
  `cplscheme/{Base,Bi,Serial,Parallel}CouplingScheme`, `TimeHandler`,
  `math/differences.hpp`.
* `M_Multi`: `cplscheme/MultiCouplingScheme` (all of it but determineInitialDataExchange, whose flags
  only guard calls) on top of `M_Cpl`; partners in any order.
* `M_Comp`: `cplscheme/CompositionalCouplingScheme` and its use in `ParticipantImpl::{initialize,advance}`;
  each scheme has its own data.
* `M_Wave`, `M_WaveCache`: `time/Storage`, `time/Waveform`, `math/Bspline`
  (the linear solve is an oracle that solves the system), `mesh/Data`.
* `M_Comm`, `M_Serial`, `M_Ring`: `com/Communication` (collectives, ranges),
  `com/SerializedStamples`, `SerializedMesh`, `SerializedPartitioning`,
  `utils/IntraComm`, connection of the ranks.
* `M_Mesh`, `M_Prep`, `M_Box`, `M_Quad`: `mesh/Mesh`, `mesh/Filter.hpp`,
  `mesh/BoundingBox`, `math/geometry::isConvexQuad`,
  `ParticipantImpl::setMeshQuad`.
* `M_Api`: `precice/impl/ParticipantImpl` (all calls), `utils/MultiLock`,
  `impl/WriteDataContext`, `impl/ReadDataContext`.  The coupling scheme, the
  waveforms and what arrives from other participants are parameters (`world`,
  `incoming`); mappings and actions are left out here.
* `M_Swarm`: `m2n/config/M2NConfiguration::checkDuplicates`,
  `config/Configuration::getBoundM2NsFor`, `m2n/M2N` (primary connections),
  `ParticipantImpl::{setupCommunication (primary part), reinitHandshake,
  closeCommunicationChannels}` for the primary ranks of all participants.
* `M_Map`: `mapping/{NearestNeighbor,NearestNeighborGradient,NearestProjection,
  LinearCellInterpolation,Barycentric,Polation,Mapping}`, `math/barycenter`,
  `query/Index` (the R-tree queries are parameters, see `search_ok`),
  `mesh/Utils` (lengths, areas and volumes are parameters).
* `M_MapTime`: `precice/impl/{DataContext::mapData,ReadDataContext,WriteDataContext}`,
  `ParticipantImpl::{handleDataBeforeAdvance,handleDataAfterAdvance,samplizeWriteData,
  trimOldDataBefore,trimSendDataAfter,trimReadMappedData,mapWrittenData,mapReadData,
  mapInitialWrittenData,mapInitialReadData}`; a mapping is any function on samples.
* `M_Accel`: `acceleration/{Acceleration::applyRelaxation,ConstantRelaxation,Aitken}`,
  with a preconditioner that is given as a list of weights.
* `M_Bounds`: `acceleration/BaseQNAcceleration::{checkBoundViolation,onBoundViolationsClamp,
  computeShorteningFactor}` and their use in performAcceleration; the quasi-Newton update is any vector.
* `M_QN`: `acceleration/{BaseQNAcceleration,IQNILSAcceleration,impl/QRFactorization}`: which
  columns are stored, counted and factorized; a column is the window and iteration it comes
  from, numerical decisions are inputs.
* `M_M2N`: `m2n/GatherScatterCommunication::{send,receive}`, `m2n/PointToPointCommunication`
  (exchange of the vertex distributions, buildCommunicationMap, send, receive); connections between
  ranks are given, data are rationals.
* `M_Socket`: `com/{SocketSendQueue,SocketRequest}`, `SocketCommunication::{aSend,send,closeConnection}`:
  the single accesses of all threads; operations of Boost.Asio write their bytes in pieces.
* `M_Publish`, `M_Names`: `com/ConnectionInfoPublisher`, the connection set-up of `com/SocketCommunication`
  (accept, request, as server, as client), and the names given by their callers.
* `M_Rbf`: `mapping/RadialBasisFctSolver`, `mapping/RadialBasisFctMapping` (mapConsistent and
  mapConservative with gather and scatter); decompositions and the basis function are parameters.
* `M_Pum`: `mapping/PartitionOfUnityMapping` (computation, both mappings, just-in-time),
  `mapping/impl/SphericalVertexCluster`, the cache functions of `mapping/RadialBasisFctSolver`.
  Not modelled: tagging, the batched solvers. The clusters are given; `M_Cluster` makes them.
* `M_Repart`: `partition/ReceivedPartition::{filterByBoundingBox,prepareBoundingBox,
  tagMeshFirstRound,compute}` and the connected ranks of `compareBoundingBoxes`,
  `mapping/NearestNeighborBaseMapping::tagMeshFirstRound`; without direct access, and
  what the primary rank broadcasts arrives unchanged (C31, C32).
* `M_QR`: `acceleration/impl/QRFactorization::{insertColumn,deleteColumn,orthogonalize,
  computeReflector,applyReflector,applyFilter,resetFilter,reset}` on values of any field; the rows
  of all ranks together. orthogonalize_stable is not called and not modelled.
* `M_IQN`: `BaseQNAcceleration.cpp` 266-356, 364-557, 559-579, 617-713, 721-747, 877-945, `IQNILSAcceleration.cpp` 52-123 and the four preconditioners on values. Not modelled: waveforms (one value per entry), parallel reductions, IMVJ's Jacobian, output of statistics.
* `M_Action`: `ScaleByAreaAction.cpp` 26-72, `SummationAction.cpp` 30-48 and where `ParticipantImpl.cpp` calls them. Not modelled: gradients, Python actions (in `M_ActConf`) and recorder actions, the computation of lengths and areas.
* `M_Fleet`: how `CouplingSchemeConfiguration.cpp` 394-427 assembles the compositions of all participants, and their solvers. Not modelled: the checks of the configuration, compositions with an implicit scheme (C20 covers one participant).
* `M_Xml`: `xml/ConfigParser.cpp` 244-324, `xml/XMLTag.cpp`, `xml/XMLAttribute.hpp`. Not modelled: libxml2, messages and hints, listeners that stop with an error.
* `M_Value`: `xml/ValueParser.cpp`, `utils/String.cpp` 56-64, `xml/ConfigParser.cpp` 24-42, and `operator>>` of libstdc++ for int and double. Not modelled: rounding to double.
* `M_Watch`: `precice/impl/ParticipantImpl.cpp` 1741-1762, `precice/impl/ParticipantState.cpp` 374-433, `io/Export.hpp` and `Export.cpp` (records and series), `io/TXTTableWriter.cpp`, `precice/impl/WatchPoint.cpp`, `precice/impl/WatchIntegral.cpp`, `mesh/Utils.cpp` 11-42. Not modelled: contents of mesh files, number formats, the search for the closest element (given).
* `M_Geo`: `mapping/RadialGeoMultiscaleMapping.cpp` 21-187, `mapping/AxialGeoMultiscaleMapping.cpp` 28-365. Not modelled: the tagging (parallel participants are refused by the configuration), meshes of two dimensions, a radius of zero in 2D-3D mappings.
* `M_Wiring`: `precice/config/Configuration.cpp` 87-219, `precice/config/ParticipantConfiguration.cpp` 266-323, 366-383, 412-479, 543-640, 739-760, 797-842, `precice/impl/ParticipantState.cpp` 60-96, 137-148, 217-252, 434-450, `mesh/config/*` 64-181, `mapping/config/MappingConfiguration.cpp` 425-493, 625-665, 797-817, `m2n/config/M2NConfiguration.cpp` 112-129, 207-218, `cplscheme/config/CouplingSchemeConfiguration.cpp` 157-475, 778-1160, `acceleration/config/AccelerationConfiguration.cpp` 190-216, `cplscheme/BaseCouplingScheme.cpp` 228-251. Not modelled: other orders of tags, parameters of mappings, communications, exports, actions and time stepping.
* `M_Vtk`: `io/ExportXML.cpp` 33-300, `io/ExportVTU.cpp`, `io/ExportVTP.cpp`, `io/ExportVTK.cpp`, `io/ExportCSV.cpp`, the names of `io/Export.cpp` 12-19, `mesh/Mesh.cpp` 311-322. Not modelled: directories, series files (C74) and whether files can be opened. How numbers are printed is a parameter.
* `M_Gradient`: `precice/impl/WriteDataContext.cpp` 7-19, 59-129, the checks of `precice/impl/ParticipantImpl.cpp` 775-848, 1169-1203, 1388-1434, one sample of `precice/impl/DataContext.cpp` 137-172. Not modelled: times of samples (C46), more than one rank.
* `M_Jit`: `precice/impl/ParticipantImpl.cpp` 392-568, 1257-1386, 1603-1621 as far as data of just-in-time mappings is concerned, `precice/impl/ReadDataContext.cpp` 43-61, `precice/impl/WriteDataContext.cpp` 42-57, `mapping/impl/MappingDataCache.hpp`, `mapping/NearestNeighborMapping.cpp` 29-48, `mapping/CoarseGrainingMapping.cpp` 80-102. Not modelled: the access region (C58), other just-in-time mappings, rounding.
* `M_Lucy`: `mapping/CoarseGrainingMapping.cpp` 17-78 over real numbers.
* `M_Cluster`: `mapping/impl/CreateClustering.hpp`, `query/Index.cpp` 240-253, 369-391. Not modelled: rounding, the order of vertices that are equally close.
* `M_Imvj`: `acceleration/IQNIMVJAcceleration.cpp`, `acceleration/BaseQNAcceleration.cpp` 266-356, 364-579, 617-747, 769-781, 877-945. Not modelled: the factorizations, filters and SVD themselves (inputs), the distribution over ranks, bounds on the values, rounding, statistics.
* `M_Cycle`: `acceleration/impl/ParallelMatrixOperations.hpp` 76-307. Not modelled: the establishment of the ring (C37), the implementation of the collective sums (C36), the memory of the matrices, rounding.
* `M_Profile`: `profiling/EventUtils.cpp` 96-330 (`EventRegistry`), `profiling/Event.cpp`, `profiling/config/ProfilingConfiguration.cpp`, the events of `ParticipantImpl`'s constructor, `initialize`, `advance`, `finalize`, `startProfilingSection`, `stopLastProfilingSection`. Not modelled: the clock (a counter), compression, the header and footer of the file, the directory, synchronization itself (only its events), allocation failures.
* `M_Grid`: `time/TimeGrids.cpp`; `acceleration/BaseQNAcceleration.cpp` 364-410, 530-608, 617-660 and 828-931 as far as they gather and scatter values. Not modelled: the update itself (C81, C82), gradients, remeshing, rounding of times.
* `M_Bind`: `extras/bindings/c/src/preciceC.cpp` and `extras/bindings/fortran/src/preciceFortran.cpp` (with MPI) completely; `src/precice/Participant.cpp`. The implementation behind is arbitrary; `sane` states what is used of it: dimensions are between 1 and 3, asking for them changes nothing, unknown meshes and data are refused by all calls, arrays are filled.
* `M_SVD`: `SVDFactorization::update`, `computeQRdecomposition`, `reset`, `getWaste` and what `restartIMVJ` makes of them, on the rows of all ranks. Not modelled: rounding, the algorithm of Eigen's JacobiSVD, the disabled preconditioner functions.
* `M_Basis`: all classes of `BasisFunctions.hpp` (constructors, `evaluate`, `getSupportRadius`, `isStrictlyPositiveDefinite`), `constructRBF`, the attributes of the basis function in `xmlTagCallback`. Not modelled: rounding, infinite numbers except for the radius 0.
* `M_ActConf`: `ActionConfiguration`, the constructors of all actions, `connectTags` and `areAllSubtagsConfigured` for action tags, the actions in `finishParticipantConfiguration`, `performDataActions`, `PythonAction::performAction`. Not modelled: the Python interpreter (an oracle), reference counts, gradients, the requirements actions have on meshes.
* `M_MapConf`: `mapping/config/MappingConfiguration.cpp` 272-394, 412-564, 567-608, 649-653, 676-797, 819-922, `connectTags` and `readAttributes` for mapping tags. Not modelled: the attributes of the multiscale mappings, messages, the initialisation of PETSc, doubles, `std::stoi` and the constructors of mappings (oracles).
* `M_Ids`: `utils/ManageUniqueIDs.cpp`, `mesh/config/MeshConfiguration.cpp` 60-92 as far as numbers and names of data are concerned. Not modelled: types, bounds and degrees of data, repeated names (`M_Wiring`).
* `M_Part`: `partition/ProvidedPartition::prepare`, `partition/ReceivedPartition::{compute,
  createOwnerInformation,setOwnerInformation}`; the filter by bounding boxes has run before, what
  the mappings tag is given.

## Not modelled

Floating-point rounding, numeric linear algebra (Eigen), MPI/Boost.Asio
internals, logging, matrix decompositions other than the QR factorization of
the acceleration, Ginkgo, the Python interpreter; the parsers of XML and
of files (libxml2) below the callbacks.
