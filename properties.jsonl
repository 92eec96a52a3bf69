{"id": "C01", "title": "Accepted time steps stay inside the window and max-time", "statement": "For a participant with a configured time-window-size, after any sequence of accepted advance(dt) calls the simulated time never exceeds the end of the current time window by more than the comparison tolerance, and never exceeds the configured max-time by more than two tolerances.", "quantifier": "every configuration (window size, max-time, max-time-windows, explicit/implicit), every sequence of positive step sizes, every sequence of convergence results", "why_tests_cant": "The claim ranges over unboundedly long step histories and all real step sizes including ones at the edge of the tolerance; tests exercise a handful of step sequences.", "anchors": ["src/cplscheme/BaseCouplingScheme.cpp:addComputedTime", "src/cplscheme/BaseCouplingScheme.cpp:getNextTimeStepMaxSize", "src/cplscheme/impl/TimeHandler.cpp:untilWindowEnd", "src/cplscheme/impl/TimeHandler.cpp:completeTimeWindow"]}
{"id": "C02", "title": "Oversized time steps are rejected", "statement": "advance(dt) with dt larger than getMaxTimeStepSize() plus the tolerance raises an error; every dt in (0, getMaxTimeStepSize()] is accepted.", "quantifier": "every reachable coupling state and every dt", "why_tests_cant": "All reals dt in all reachable states; boundary cases lie within 1e-14 of the limit.", "anchors": ["src/cplscheme/BaseCouplingScheme.cpp:addComputedTime", "src/precice/impl/ParticipantImpl.cpp:advance", "src/precice/impl/ParticipantImpl.cpp:getMaxTimeStepSize"]}
{"id": "C03", "title": "A participant that follows getMaxTimeStepSize always makes progress", "statement": "For a participant that never steps beyond getMaxTimeStepSize(): while isCouplingOngoing() is true, getMaxTimeStepSize() is positive, and advance(getMaxTimeStepSize()) always reaches the end of the time window.", "quantifier": "every configuration and every history of accepted steps", "why_tests_cant": "A stuck state (ongoing but no admissible step) would appear only for special max-time / window-size / step combinations.", "anchors": ["src/precice/impl/ParticipantImpl.cpp:getMaxTimeStepSize", "src/cplscheme/BaseCouplingScheme.cpp:isCouplingOngoing", "src/cplscheme/impl/TimeHandler.cpp:untilWindowEnd"]}
{"id": "C04", "title": "Window starts do not drift", "statement": "With a fixed time-window-size w, after n completed time windows (before max-time truncation) the window start time equals n*w exactly, independently of how the solver subdivided the windows and of how many implicit iterations each window needed.", "quantifier": "every number of windows, every subdivision into substeps, every iteration history", "why_tests_cant": "Accumulation errors show only after many windows with particular subdivisions.", "anchors": ["src/cplscheme/impl/TimeHandler.cpp:completeTimeWindow", "src/cplscheme/BaseCouplingScheme.cpp:secondExchange"]}
{"id": "C05", "title": "A repeated window restarts from its beginning", "statement": "If advance() ends a window without convergence, the simulated time is back at the window start, the number of completed windows is unchanged, reading a checkpoint is required, and the maximal step size is again the full window.", "quantifier": "every reachable state of an implicit coupling and every convergence history", "why_tests_cant": "Needs to hold for any number of iterations in any window.", "anchors": ["src/cplscheme/BaseCouplingScheme.cpp:secondExchange", "src/cplscheme/BaseCouplingScheme.cpp:requireAction", "src/cplscheme/impl/TimeHandler.cpp:resetProgress"]}
{"id": "C06", "title": "The simulation ends exactly at the configured limits and stays ended", "statement": "isCouplingOngoing() turns false exactly when max-time-windows windows are completed or max-time is reached; the number of completed windows never exceeds max-time-windows; after the end no further step is possible.", "quantifier": "every configuration and every history of steps and convergence results", "why_tests_cant": "Off-by-one errors depend on combinations of limits, truncation and iteration histories.", "anchors": ["src/cplscheme/BaseCouplingScheme.cpp:isCouplingOngoing", "src/cplscheme/BaseCouplingScheme.cpp:firstExchange", "src/cplscheme/BaseCouplingScheme.cpp:secondExchange", "src/cplscheme/impl/TimeHandler.cpp:reachedEnd"]}
{"id": "C07", "title": "isTimeWindowComplete reports exactly the completed windows", "statement": "After advance(), isTimeWindowComplete() is true iff this advance reached the end of the time window and (for implicit coupling) the coupling converged.", "quantifier": "every reachable state, step and convergence result", "why_tests_cant": "Universally quantified over histories.", "anchors": ["src/cplscheme/BaseCouplingScheme.cpp:isTimeWindowComplete", "src/cplscheme/BaseCouplingScheme.cpp:secondExchange", "src/precice/impl/ParticipantImpl.cpp:isTimeWindowComplete"]}
{"id": "C08", "title": "Checkpoint requests follow the write-iterate-read protocol", "statement": "In implicit coupling a write checkpoint is requested at initialize; afterwards each advance() that ends a window requests a read checkpoint if it did not converge, a write checkpoint if it converged and the coupling goes on, and nothing otherwise; read and write are never requested at the same time; explicit coupling never requests checkpoints.", "quantifier": "every history of steps and convergence results", "why_tests_cant": "The protocol is a property of unbounded API histories.", "anchors": ["src/cplscheme/BaseCouplingScheme.cpp:requireAction", "src/precice/impl/ParticipantImpl.cpp:requiresWritingCheckpoint", "src/precice/impl/ParticipantImpl.cpp:requiresReadingCheckpoint"]}
{"id": "C09", "title": "Ignoring a requested action is an error", "statement": "If a checkpoint (or initial data) was requested and the solver did not query it, the next advance()/initialize() raises an error instead of continuing; if it was queried, no such error is raised.", "quantifier": "every reachable state with pending requests and every subset of answered requests", "why_tests_cant": "Quantifies over all interleavings of requests and answers.", "anchors": ["src/cplscheme/BaseCouplingScheme.cpp:checkCompletenessRequiredActions", "src/cplscheme/BaseCouplingScheme.cpp:markActionFulfilled"]}
{"id": "C10", "title": "Iteration counts respect min-iterations and max-iterations", "statement": "In implicit coupling every completed window took at least min-iterations and at most max-iterations iterations (for unlimited max-iterations only the lower bound); the iteration counter restarts at one in every window.", "quantifier": "every configuration with min<=max and every sequence of convergence measurements", "why_tests_cant": "All sequences of measurement outcomes over all windows.", "anchors": ["src/cplscheme/BaseCouplingScheme.cpp:doImplicitStep", "src/cplscheme/BaseCouplingScheme.cpp:measureConvergence"]}
{"id": "C11", "title": "Convergence is decided as documented", "statement": "The coupling converges in an iteration iff min-iterations is reached and (all measures converged, or some measure marked suffices converged and no strict measure failed); with no measures it converges only at max-iterations; the order of the measures is irrelevant.", "quantifier": "every list of measures with arbitrary flags and every outcome vector", "why_tests_cant": "Exponentially many flag/outcome combinations of unbounded length.", "anchors": ["src/cplscheme/BaseCouplingScheme.cpp:measureConvergence", "src/cplscheme/BaseCouplingScheme.cpp:doImplicitStep"]}
{"id": "C12", "title": "A failing strict measure stops the simulation at max-iterations", "statement": "If a strict convergence measure has not converged in iteration max-iterations, the simulation is terminated with an error; it is never silently accepted.", "quantifier": "every list of measures, outcomes and iteration limits", "why_tests_cant": "All combinations of flags and limits.", "anchors": ["src/cplscheme/BaseCouplingScheme.cpp:measureConvergence"]}
{"id": "C13", "title": "Serial-explicit coupling never deadlocks and both participants stay in step", "statement": "Two participants coupled serial-explicitly that both step through the simulation exchange messages in matching order: no schedule deadlocks, and after each window both have the same number of completed windows, the same window start and the same decision whether the coupling is ongoing.", "quantifier": "every interleaving of the two processes, every subdivision of windows into substeps, any number of windows, synchronous or buffered message delivery", "why_tests_cant": "Deadlocks depend on schedules and buffering, and on where the simulation ends.", "anchors": ["src/cplscheme/SerialCouplingScheme.cpp:exchangeFirstData", "src/cplscheme/SerialCouplingScheme.cpp:exchangeSecondData", "src/cplscheme/SerialCouplingScheme.cpp:exchangeInitialData"]}
{"id": "C14", "title": "Serial-implicit coupling never deadlocks and both participants agree on convergence", "statement": "Two participants coupled serial-implicitly agree in every iteration on convergence, on the number of completed windows, on the window start and on whether the coupling is ongoing, for every schedule, without deadlock.", "quantifier": "every interleaving, every convergence history, every subdivision into substeps, any number of windows and iterations, synchronous or buffered delivery", "why_tests_cant": "As for C13, additionally over all convergence histories.", "anchors": ["src/cplscheme/SerialCouplingScheme.cpp:exchangeFirstData", "src/cplscheme/SerialCouplingScheme.cpp:exchangeSecondData", "src/cplscheme/BaseCouplingScheme.cpp:sendConvergence", "src/cplscheme/BaseCouplingScheme.cpp:receiveConvergence"]}
{"id": "C15", "title": "Parallel-explicit coupling never deadlocks and both participants stay in step", "statement": "As C13 for parallel-explicit coupling.", "quantifier": "every interleaving, every subdivision into substeps, any number of windows, synchronous or buffered delivery", "why_tests_cant": "Deadlocks depend on schedules and buffering.", "anchors": ["src/cplscheme/ParallelCouplingScheme.cpp:exchangeFirstData", "src/cplscheme/ParallelCouplingScheme.cpp:exchangeSecondData", "src/cplscheme/ParallelCouplingScheme.cpp:exchangeInitialData"]}
{"id": "C16", "title": "Parallel-implicit coupling never deadlocks and both participants agree on convergence", "statement": "As C14 for parallel-implicit coupling.", "quantifier": "every interleaving, every convergence history, any number of windows and iterations, synchronous or buffered delivery", "why_tests_cant": "Deadlocks and disagreements depend on schedules and convergence histories.", "anchors": ["src/cplscheme/ParallelCouplingScheme.cpp:exchangeFirstData", "src/cplscheme/ParallelCouplingScheme.cpp:exchangeSecondData"]}
{"id": "C17", "title": "Multi coupling with any number of participants agrees on convergence without deadlock", "statement": "In a multi coupling with one controller and any number of other participants, every participant ends each iteration with the convergence decision of the controller and the same window count, for every schedule, without deadlock.", "quantifier": "every number of participants, every interleaving, every convergence history", "why_tests_cant": "Number of participants and schedules are unbounded.", "anchors": ["src/cplscheme/MultiCouplingScheme.cpp:exchangeFirstData", "src/cplscheme/MultiCouplingScheme.cpp:exchangeSecondData", "src/cplscheme/MultiCouplingScheme.cpp:exchangeInitialData"]}
{"id": "C18", "title": "With the first-participant method the second participant computes the same window", "statement": "With time-window-size method first-participant, the window size used by the second participant in every window equals the step the first participant took, so both reach the same window end.", "quantifier": "every sequence of step sizes chosen by the first participant and any number of windows", "why_tests_cant": "All step sequences.", "anchors": ["src/cplscheme/SerialCouplingScheme.cpp:sendTimeWindowSize", "src/cplscheme/SerialCouplingScheme.cpp:receiveAndSetTimeWindowSize"]}
{"id": "C19", "title": "Data read at the window end is the data the partner wrote", "statement": "After each exchange the data a participant can read for the exchanged window equals the data the partner sent for it (after acceleration where configured), for every data item, with the sender's time stamps if substeps are exchanged and stamped at the window end otherwise.", "quantifier": "every set of exchanged data, every written value, every window and iteration, every schedule", "why_tests_cant": "All data values and histories.", "anchors": ["src/cplscheme/BaseCouplingScheme.cpp:sendData", "src/cplscheme/BaseCouplingScheme.cpp:receiveData", "src/cplscheme/BaseCouplingScheme.cpp:receiveDataForWindowEnd"]}
{"id": "C20", "title": "Composed schemes advance together and explicit schemes wait for implicit convergence", "statement": "For a participant with several coupling schemes, explicit schemes exchange data of a window only after all implicit schemes of this participant converged, and after every completed window all schemes are at the same time and window.", "quantifier": "every list of explicit and implicit schemes, every step history, every convergence history of each scheme", "why_tests_cant": "Number of schemes and histories unbounded.", "anchors": ["src/cplscheme/CompositionalCouplingScheme.cpp:firstExchange", "src/cplscheme/CompositionalCouplingScheme.cpp:secondExchange", "src/cplscheme/CompositionalCouplingScheme.cpp:addComputedTime", "src/cplscheme/CompositionalCouplingScheme.cpp:updateActiveSchemes"]}
{"id": "C21", "title": "API calls outside their life-cycle phase are errors", "statement": "initialize() succeeds at most once, advance(), readData() and isCouplingOngoing() are errors unless the participant is initialized and not finalized, nothing is accepted after finalize(), and an erroneous call does not change the life-cycle phase.", "quantifier": "every sequence of API calls", "why_tests_cant": "All call sequences of unbounded length.", "anchors": ["src/precice/impl/ParticipantImpl.cpp:initialize", "src/precice/impl/ParticipantImpl.cpp:advance", "src/precice/impl/ParticipantImpl.cpp:finalize", "src/precice/impl/ParticipantImpl.hpp:State"]}
{"id": "C22", "title": "Meshes cannot be changed while locked", "statement": "Vertices and connectivity of a provided mesh can be set only before initialize() or after resetMesh() in the same step; afterwards every attempt is an error and the mesh is unchanged.", "quantifier": "every sequence of API calls over any number of meshes", "why_tests_cant": "All call sequences.", "anchors": ["src/utils/MultiLock.hpp", "src/precice/impl/ValidationMacros.hpp:PRECICE_REQUIRE_MESH_MODIFY", "src/precice/impl/ParticipantImpl.cpp:resetMesh"]}
{"id": "C23", "title": "Vertex IDs are dense, unique and stable", "statement": "setMeshVertex/setMeshVertices return exactly the IDs n, n+1, ... where n is the current number of vertices; IDs returned earlier keep naming the same coordinates; getMeshVertexSize equals the number of vertices set since the last reset.", "quantifier": "every sequence of vertex creations, in any batching", "why_tests_cant": "All call sequences.", "anchors": ["src/precice/impl/ParticipantImpl.cpp:setMeshVertex", "src/precice/impl/ParticipantImpl.cpp:setMeshVertices", "src/mesh/Mesh.cpp:createVertex"]}
{"id": "C24", "title": "Written values are stored at exactly the named vertices", "statement": "writeData stores each value at the vertex it was given for and changes no other vertex; reading the same vertices back returns the values; with repeated IDs the last value wins; an invalid vertex ID or wrongly sized buffer is an error and changes nothing.", "quantifier": "every mesh size, data dimension, ID list and value list", "why_tests_cant": "All lists of IDs (permutations, repetitions, subsets).", "anchors": ["src/precice/impl/ParticipantImpl.cpp:writeData", "src/precice/impl/WriteDataContext.cpp:writeValuesIntoDataBuffer", "src/precice/impl/ReadDataContext.cpp:readValues"]}
{"id": "C25", "title": "Stored samples of a data are strictly ordered in time", "statement": "Whatever sequence of writes, window moves and trims is performed, the stored samples of a data have strictly increasing time stamps that are more than the tolerance apart.", "quantifier": "every sequence of storage operations accepted by the code", "why_tests_cant": "Unbounded operation sequences.", "anchors": ["src/time/Waveform.cpp:setSampleAtTime", "src/time/Waveform.cpp:move", "src/time/Waveform.cpp:trimBefore", "src/time/Waveform.cpp:trimAfter"]}
{"id": "C26", "title": "Reading at a stored time returns the stored sample exactly", "statement": "readData at a relative time that coincides with the time stamp of a stored sample returns that sample unchanged, for every waveform degree; a write at an existing time stamp replaces only that sample.", "quantifier": "every storage content, degree and time", "why_tests_cant": "All contents and degrees.", "anchors": ["src/time/Waveform.cpp:sample", "src/time/Waveform.cpp:setSampleAtTime", "src/time/Waveform.cpp:getSampleAtOrAfter"]}
{"id": "C27", "title": "Reading between samples interpolates between neighbours", "statement": "With waveform-degree 0 a read between two stored times returns the next sample; with degree 1 it returns the linear interpolation of the two neighbouring samples, hence a value between them, and sampling is exact for data linear in time.", "quantifier": "every storage content and every time inside the stored range", "why_tests_cant": "All reals.", "anchors": ["src/time/Waveform.cpp:sample", "src/math/Bspline.cpp:interpolateAt"]}
{"id": "C28", "title": "Reads reflect the current samples", "statement": "The value returned by a read depends only on the samples currently stored, not on earlier reads or overwritten samples.", "quantifier": "every interleaving of reads and storage updates", "why_tests_cant": "Stale caches appear only for particular interleavings of reads and updates.", "anchors": ["src/time/Waveform.cpp:sample", "src/time/Waveform.cpp:setAllSamples", "src/time/Waveform.hpp:_bspline"]}
{"id": "C29", "title": "Moving to the next window keeps exactly the end state", "statement": "When a window is completed, the sample at its end becomes the only sample and start of the next window; samples of other data are unaffected; trimming for a repeated iteration keeps exactly the samples up to the window start.", "quantifier": "every storage content and trim time", "why_tests_cant": "All contents.", "anchors": ["src/time/Waveform.cpp:move", "src/mesh/Data.cpp:moveToNextWindow", "src/cplscheme/CouplingData.cpp:moveToNextWindow", "src/time/Waveform.cpp:trimAfter"]}
{"id": "C30", "title": "Exchanging substeps is lossless", "statement": "Packing all samples of a data for sending and unpacking them on the other side reproduces the same time stamps, values and gradients.", "quantifier": "every number of time steps, vertices, dimensions and values", "why_tests_cant": "All sizes and contents.", "anchors": ["src/com/SerializedStamples.cpp:serialize", "src/com/SerializedStamples.cpp:deserializeInto"]}
{"id": "C31", "title": "Sending a mesh is lossless", "statement": "A mesh sent to another participant or rank arrives with the same vertices (coordinates and global IDs) in the same order and with the same edges, triangles and tetrahedra between corresponding vertices, also when appended to a non-empty mesh.", "quantifier": "every mesh", "why_tests_cant": "All meshes.", "anchors": ["src/com/SerializedMesh.cpp:serialize", "src/com/SerializedMesh.cpp:addToMesh"]}
{"id": "C32", "title": "Sending partitioning information is lossless", "statement": "Connection maps with at least one entry, bounding boxes and maps of bounding boxes (also empty ones) are reproduced exactly by send and receive.", "quantifier": "every map and box", "why_tests_cant": "All contents, including empty ones.", "anchors": ["src/com/SerializedPartitioning.cpp"]}
{"id": "C33", "title": "Sending a range of values is lossless and leaves nothing behind", "statement": "A vector sent with its length is received identically, including the empty vector, and the channel contains nothing else afterwards; consecutive ranges never mix.", "quantifier": "every sequence of vectors", "why_tests_cant": "All lengths and sequences.", "anchors": ["src/com/Communication.cpp:sendRange", "src/com/Communication.cpp:receiveRange"]}
{"id": "C34", "title": "Gather-scatter data exchange delivers every value to its vertices", "statement": "With gather-scatter communication each rank of the receiving participant obtains, for each of its vertices, the sum of the values sent for that vertex by the ranks of the sending participant.", "quantifier": "every number of ranks on both sides, every vertex distribution and data", "why_tests_cant": "All distributions.", "anchors": ["src/m2n/GatherScatterCommunication.cpp:send", "src/m2n/GatherScatterCommunication.cpp:receive"]}
{"id": "C35", "title": "Point-to-point data exchange delivers every value to its vertices", "statement": "With point-to-point communication both sides derive matching message layouts from the vertex distributions and each receiving vertex obtains the sum of the values sent for it, the same result as gather-scatter communication.", "quantifier": "every number of ranks, every pair of (sorted) vertex distributions and data", "why_tests_cant": "All distributions.", "anchors": ["src/m2n/PointToPointCommunication.cpp:buildCommunicationMap", "src/m2n/PointToPointCommunication.cpp:send", "src/m2n/PointToPointCommunication.cpp:receive", "src/utils/algorithm.hpp:set_intersection_indices"]}
{"id": "C36", "title": "Intra-participant reductions and broadcasts are correct and deadlock-free", "statement": "Sum reductions give the sum of all ranks' contributions on the primary rank (and on all ranks for allreduce), broadcasts give every rank the primary's values, for every schedule and number of ranks.", "quantifier": "every number of ranks, vector length, contribution and interleaving", "why_tests_cant": "Ranks and schedules unbounded.", "anchors": ["src/com/Communication.cpp:reduceSum", "src/com/Communication.cpp:allreduceSum", "src/com/Communication.cpp:broadcast", "src/utils/IntraComm.cpp:allreduceSum"]}
{"id": "C37", "title": "Establishing the ring of ranks terminates", "statement": "The circular connection set-up between the ranks of a participant terminates for every number of ranks greater than one, connecting each rank with its two neighbours.", "quantifier": "every number of ranks and every schedule", "why_tests_cant": "Odd and even rank counts and schedules.", "anchors": ["src/com/Communication.cpp:connectCircularComm"]}
{"id": "C38", "title": "Shutdown is synchronized", "statement": "finalize() of coupled participants exchanges its closing messages in matching order: no schedule deadlocks and both sides see each other's last message before closing.", "quantifier": "every schedule and both roles", "why_tests_cant": "Schedules.", "anchors": ["src/precice/impl/ParticipantImpl.cpp:closeCommunicationChannels"]}
{"id": "C39", "title": "Asynchronous sends on a socket keep their order", "statement": "Messages handed to a socket connection are written completely, in the order in which they were sent, one at a time, and every send's completion is reported exactly once.", "quantifier": "every interleaving of sends and write completions", "why_tests_cant": "All interleavings.", "anchors": ["src/com/SocketSendQueue.cpp"]}
{"id": "C40", "title": "Nearest-neighbour mapping: consistent reproduces nearest values", "statement": "A consistent nearest-neighbour mapping gives each target vertex the value of a source vertex at minimal distance; constant fields are reproduced; the mapped values never leave the range of source values.", "quantifier": "every pair of meshes and every data", "why_tests_cant": "All meshes and data.", "anchors": ["src/mapping/NearestNeighborBaseMapping.cpp:computeMapping", "src/mapping/NearestNeighborMapping.cpp:mapConsistent"]}
{"id": "C41", "title": "Nearest-neighbour mapping: conservative preserves the sum", "statement": "A conservative nearest-neighbour mapping preserves, per component, the sum over all vertices and adds each source value to exactly one target vertex.", "quantifier": "every pair of meshes and every data", "why_tests_cant": "All meshes and data.", "anchors": ["src/mapping/NearestNeighborMapping.cpp:mapConservative"]}
{"id": "C42", "title": "Projection-based mappings: consistency and conservation", "statement": "Nearest-projection and linear-cell mappings reproduce constant fields when consistent and preserve the sum of values when conservative, up to the weights dropped as numerically zero; consistent and conservative variants are transposes of each other.", "quantifier": "every set of interpolation stencils whose weights sum to one, every data", "why_tests_cant": "All stencils and data.", "anchors": ["src/mapping/BarycentricBaseMapping.cpp:mapConsistent", "src/mapping/BarycentricBaseMapping.cpp:mapConservative", "src/mapping/BarycentricBaseMapping.cpp:addPolation", "src/mapping/Polation.cpp"]}
{"id": "C43", "title": "Interpolation weights are barycentric coordinates", "statement": "The weights computed for a point relative to an edge, triangle or tetrahedron sum to one, reproduce the point (its orthogonal projection) as weighted sum of the corners, and are all non-negative exactly for points projecting into the element.", "quantifier": "all non-degenerate elements and all points, 2D and 3D", "why_tests_cant": "All reals.", "anchors": ["src/math/barycenter.cpp", "src/mapping/Polation.cpp:isInterpolation"]}
{"id": "C44", "title": "Scaled-consistent mappings preserve the integral", "statement": "After a scaled-consistent mapping the integral of each data component over the output mesh equals the integral over the input mesh whenever the unscaled output integral is non-zero.", "quantifier": "every mesh, data and unscaled mapping result", "why_tests_cant": "All data.", "anchors": ["src/mapping/Mapping.cpp:scaleConsistentMapping", "src/mesh/Utils.cpp:integrateSurface"]}
{"id": "C45", "title": "Relaxation yields a convex combination and respects earlier windows", "statement": "Constant relaxation replaces each sample of the current window by omega*new + (1-omega)*old, leaves samples up to the window start untouched, leaves a converged (unchanged) solution unchanged, and never leaves the range between old and new values.", "quantifier": "every data, omega in (0,1], every time grid", "why_tests_cant": "All values.", "anchors": ["src/acceleration/Acceleration.cpp:applyRelaxation", "src/acceleration/ConstantRelaxationAcceleration.cpp"]}
{"id": "C46", "title": "Aitken acceleration solves scalar linear fixed points", "statement": "For a single scalar coupling quantity and an affine fixed-point map, Aitken under-relaxation reaches the exact fixed point in the second iteration; in the first iteration of a window the factor never exceeds the configured initial relaxation.", "quantifier": "all affine maps, start values and initial relaxation factors", "why_tests_cant": "All reals.", "anchors": ["src/acceleration/AitkenAcceleration.cpp:performAcceleration"]}
{"id": "C47", "title": "Quasi-Newton bound handling keeps data in its bounds", "statement": "If bounds are configured, clamping makes every accelerated value respect its bounds and leaves admissible values unchanged; scaling the step back keeps all values within bounds when the previous values were, and discarding returns the unaccelerated values.", "quantifier": "every data vector, update and bounds, on any number of ranks, with one time step per window", "why_tests_cant": "All reals.", "anchors": ["src/acceleration/BaseQNAcceleration.cpp:onBoundViolationsClamp", "src/acceleration/BaseQNAcceleration.cpp:onBoundViolationsScale", "src/acceleration/BaseQNAcceleration.cpp:checkBoundViolation"]}
{"id": "C48", "title": "Quasi-Newton history stays within its configured size", "statement": "The number of stored quasi-Newton columns never exceeds max-used-iterations, always equals the sum of the per-window column counts, the columns are ordered from the newest to the oldest, and columns of at most time-windows-reused earlier windows are kept (windows without iterations do not count), as long as the filter leaves some column of each window.", "quantifier": "every sequence of iterations, convergences and filter decisions", "why_tests_cant": "Unbounded histories.", "anchors": ["src/acceleration/BaseQNAcceleration.cpp:updateDifferenceMatrices", "src/acceleration/BaseQNAcceleration.cpp:iterationsConverged", "src/acceleration/BaseQNAcceleration.cpp:removeMatrixColumn"]}
{"id": "C49", "title": "Every relevant vertex of a received mesh has exactly one owner", "statement": "After repartitioning, every vertex needed by at least one rank is owned by exactly one rank and every owner needs the vertex.", "quantifier": "every number of ranks, every assignment of vertices and needs", "why_tests_cant": "All distributions.", "anchors": ["src/partition/ReceivedPartition.cpp:createOwnerInformation"]}
{"id": "C50", "title": "Global numbering of provided meshes is unique and contiguous", "statement": "The ranks of a participant number the vertices of a provided mesh with disjoint consecutive ranges covering 0..N-1, every rank learns N and all range ends, and the vertex distribution lists exactly these numbers, for every schedule.", "quantifier": "every number of ranks, every local vertex count, every schedule", "why_tests_cant": "All distributions and schedules.", "anchors": ["src/partition/ProvidedPartition.cpp:prepare", "src/mesh/Mesh.cpp:isPartitionEmpty"]}
{"id": "C51", "title": "Mesh preprocessing closes connectivity without duplicates", "statement": "Before mapping, each tetrahedron has its four triangles and each triangle its three edges in the mesh, nothing else is added, user-defined elements are kept, and duplicates are removed.", "quantifier": "every mesh", "why_tests_cant": "All meshes.", "anchors": ["src/mesh/Mesh.cpp:preprocess", "src/mesh/Mesh.cpp:removeDuplicates", "src/mesh/Mesh.cpp:generateImplictPrimitives"]}
{"id": "C52", "title": "Filtering a mesh keeps exactly the selected vertices and their elements", "statement": "Filtering keeps the selected vertices in order with their global IDs and exactly the elements all of whose vertices are selected.", "quantifier": "every mesh and selection", "why_tests_cant": "All meshes.", "anchors": ["src/mesh/Filter.hpp:filterMesh"]}
{"id": "C53", "title": "Bounding boxes enclose what they were built from", "statement": "The bounding box of a mesh contains all its vertices and is the smallest such box; merging boxes contains both; overlap is symmetric and detects every common point; enlarging never loses a point.", "quantifier": "every vertex set and box", "why_tests_cant": "All reals.", "anchors": ["src/mesh/BoundingBox.cpp", "src/mesh/Mesh.cpp:computeBoundingBox"]}
{"id": "C54", "title": "Quads are split into two triangles covering all four corners", "statement": "setMeshQuad on a convex quad stores two triangles sharing a diagonal that together use all four vertices; the convexity check terminates for all inputs and accepts only quads whose ordering is the convex hull.", "quantifier": "all quadruples of vertices", "why_tests_cant": "All coordinates including degenerate ones.", "anchors": ["src/precice/impl/ParticipantImpl.cpp:setMeshQuad", "src/math/geometry.cpp:isConvexQuad"]}
{"id": "C55", "title": "Mapping fills in every missing time stamp", "statement": "After mapping, the target data has a sample at each time stamp of the source data later than the given limit; samples already present are not touched; each new sample is the mapped source sample of the same time.", "quantifier": "every content of source and target data and every limit", "why_tests_cant": "All contents.", "anchors": ["src/precice/impl/DataContext.cpp:mapData"]}
{"id": "C56", "title": "Constant data is interpolated exactly for every waveform degree", "statement": "If all stored samples of a data are equal, readData returns this value at every time of the window, for every waveform-degree, whenever the interpolation problem has a unique solution.", "quantifier": "every degree, number of samples, set of time stamps and time", "why_tests_cant": "All degrees and time grids.", "anchors": ["src/math/Bspline.cpp", "src/time/Waveform.cpp:sample"]}
{"id": "C57", "title": "Connectivity calls add exactly the given elements and keep every mesh well-formed", "statement": "setMeshEdge(s), setMeshTriangle(s) and setMeshTetrahedron/Tetrahedra append exactly the given elements in order if connectivity is required and nothing otherwise; at any time every element of every mesh refers to existing vertices.", "quantifier": "every sequence of API calls and every received mesh", "why_tests_cant": "All call sequences and IDs.", "anchors": ["src/precice/impl/ParticipantImpl.cpp:setMeshEdges", "src/precice/impl/ParticipantImpl.cpp:setMeshTriangles", "src/precice/impl/ParticipantImpl.cpp:setMeshTetrahedra", "src/mesh/Mesh.cpp"]}
{"id": "C58", "title": "Direct access returns exactly the vertices in the access region", "statement": "getMeshVertexIDsAndCoordinates returns exactly the vertices of the received mesh inside the access region, in ascending order of IDs and with their coordinates; getMeshVertexSize is their number; the IDs are valid for writeData and readData; a region can be set only once, before initialize().", "quantifier": "every received mesh, region and sequence of API calls", "why_tests_cant": "All meshes and regions.", "anchors": ["src/precice/impl/ParticipantImpl.cpp:getMeshVertexIDsAndCoordinates", "src/precice/impl/ParticipantImpl.cpp:setMeshAccessRegion", "src/precice/impl/ReceivedMeshContext.cpp"]}
{"id": "C59", "title": "Participants agree on remeshing", "statement": "At the end of a time window all participants decide together whether to reinitialize: the exchange ends under every schedule, and every participant reinitializes if and only if some participant changed a mesh.", "quantifier": "every number of participants, every graph of connections, every set of participants that changed a mesh, every schedule", "why_tests_cant": "Schedules and topologies.", "anchors": ["src/precice/impl/ParticipantImpl.cpp:reinitHandshake"]}
{"id": "C60", "title": "Connections are consistent and always established", "statement": "Every accepted set of m2n tags gives both participants of a tag the connection with opposite roles; participants with the same version and configuration always connect without deadlock, whatever the graph; two participants with different versions or configurations both report it.", "quantifier": "every set of tags, every number of participants, every schedule, every version and configuration", "why_tests_cant": "Topologies and schedules.", "anchors": ["src/m2n/config/M2NConfiguration.cpp:checkDuplicates", "src/precice/config/Configuration.cpp:getBoundM2NsFor", "src/m2n/M2N.cpp:acceptPrimaryRankConnection", "src/m2n/M2N.cpp:requestPrimaryRankConnection", "src/m2n/M2N.cpp:checkRemoteInfo", "src/precice/impl/ParticipantImpl.cpp:setupCommunication"]}
{"id": "C61", "title": "Projected values come from a closest point, and linear functions are reproduced", "statement": "With nearest-projection every consistent value is, up to weights dropped as numerically zero, a weighted mean (weights non-negative up to the tolerance, sum one) of the values at vertices whose weighted mean of positions is the orthogonal projection of the target vertex, and this point is no farther away than any vertex of the source mesh and any point of the edges (3D: triangles) that the search returns and that the vertex projects into. Linear-cell interpolation reproduces a linear function of the position at every point in a cell that the search returns; nearest-neighbor-gradient reproduces linear functions at every point.", "quantifier": "every pair of meshes, every data, every linear function", "why_tests_cant": "All geometries and all linear functions.", "anchors": ["src/query/Index.cpp:findNearestProjection", "src/query/Index.cpp:findCellOrProjection", "src/mapping/Polation.cpp", "src/mapping/NearestNeighborGradientMapping.cpp"]}
{"id": "C62", "title": "Quasi-Newton matrices and their factorization stay consistent", "statement": "If the residual differences are linearly independent and there are fewer columns than unknowns, no sequence of iterations, convergences, filter deletions, preconditioner updates and changes of meshes makes quasi-Newton acceleration fail, and whenever an update is computed the factorization is that of exactly the stored columns.", "quantifier": "every configuration of limit, reuse, filter and initial relaxation, every sequence of iterations and convergences, every filter decision that keeps the newest column", "why_tests_cant": "Unbounded histories.", "anchors": ["src/acceleration/BaseQNAcceleration.cpp:performAcceleration", "src/acceleration/BaseQNAcceleration.cpp:iterationsConverged", "src/acceleration/BaseQNAcceleration.cpp:applyFilter", "src/acceleration/IQNILSAcceleration.cpp:computeQNUpdate", "src/acceleration/impl/QRFactorization.cpp:applyFilter"]}
{"id": "C63", "title": "Requesters connect to the acceptor of the connection, whatever the timing", "statement": "When an acceptor publishes its address and requesters connect, every requester uses exactly the address the acceptor published, never a partial one; without crashes nobody fails and everybody gets connected after finitely many steps, with every rank registered once, and no file is left. Files left by a crashed run are detected by the next acceptor, which stops with an error instead of accepting connections.", "quantifier": "all numbers of requesters, all interleavings of the single file and socket operations of all processes, crashes of any process at any point, any leftover files", "why_tests_cant": "A test sees a few timings; races between writing, publishing, reading and deleting the file and crash points in between cannot be enumerated by tests.", "anchors": ["src/com/ConnectionInfoPublisher.cpp:ConnectionInfoWriter::write", "src/com/ConnectionInfoPublisher.cpp:ConnectionInfoReader::read", "src/com/SocketCommunication.cpp:acceptConnection", "src/com/SocketCommunication.cpp:requestConnection", "src/com/SocketCommunication.cpp:acceptConnectionAsServer", "src/com/SocketCommunication.cpp:requestConnectionAsClient"]}
{"id": "C64", "title": "Different connections never share an address file", "statement": "Two connections that differ in acceptor, requester, tag or rank are published in different files, and the clean-up after one pair of participants does not remove files of another pair.", "quantifier": "all names of participants and meshes, all ranks, every injective hash", "why_tests_cant": "The names come from user configurations; tests use a handful of names.", "anchors": ["src/com/ConnectionInfoPublisher.cpp:hashedFilePath", "src/com/ConnectionInfoPublisher.cpp:localDirectory", "src/com/Communication.cpp:connectCircularComm", "src/com/SocketCommunication.cpp:cleanupEstablishment"]}
{"id": "C65", "title": "Radial-basis-function mappings interpolate, reproduce linear functions, conserve, and do not depend on the parallelization", "statement": "With global RBF mappings a target vertex at the place of a source vertex gets its value; with a polynomial (integrated or separate) linear functions are mapped exactly and conservative mappings keep the sum and the first moments of the values; conservative is the transpose of consistent; and every rank gets the values of a serial run.", "quantifier": "all meshes, data, basis functions, axis settings, polynomial settings, distributions to any number of ranks and orders of vertices for which the decompositions solve their systems", "why_tests_cant": "All geometries, data, basis functions and partitions.", "anchors": ["src/mapping/RadialBasisFctSolver.hpp:buildMatrixCLU", "src/mapping/RadialBasisFctSolver.hpp:solveConsistent", "src/mapping/RadialBasisFctSolver.hpp:solveConservative", "src/mapping/RadialBasisFctMapping.hpp:mapConsistent", "src/mapping/RadialBasisFctMapping.hpp:mapConservative"]}
{"id": "C66", "title": "Partition-of-unity mappings interpolate, conserve and agree with reading and writing at coordinates", "statement": "For a partition-of-unity mapping the weights of every vertex belong to exactly the clusters that contain it and sum up to one. An output vertex at the place of an input vertex gets its value; with a polynomial linear functions are mapped exactly and conservative mappings keep the sum and the first moments of the values; the conservative mapping is the transposed consistent mapping. Reading at a coordinate with mapAndReadData returns what a mapping to a mesh with a vertex there returns, and writing at coordinates with writeAndMapData adds what a conservative mapping from a mesh with these vertices adds, as long as every load is seen by a basis function. A mapping can be computed whenever every vertex is inside a cluster and none is within the tolerance of the edge of one.", "quantifier": "all meshes, clusterings, radii, basis and weighting functions, data and loads (exact arithmetic)", "why_tests_cant": "Tests use a few meshes on which no vertex is near the edge of a cluster; the overlap of clusters, the assignment of local to global indices and the equality of the two code paths (matrix and just-in-time) range over all meshes.", "anchors": ["src/mapping/PartitionOfUnityMapping.hpp:computeMapping", "src/mapping/PartitionOfUnityMapping.hpp:computeNormalizedWeight", "src/mapping/PartitionOfUnityMapping.hpp:mapConsistentAt", "src/mapping/PartitionOfUnityMapping.hpp:mapConservativeAt", "src/mapping/PartitionOfUnityMapping.hpp:completeJustInTimeMapping", "src/mapping/impl/SphericalVertexCluster.hpp:setNormalizedWeight", "src/mapping/impl/SphericalVertexCluster.hpp:mapConsistent", "src/mapping/RadialBasisFctSolver.hpp:interpolateAt", "src/mapping/RadialBasisFctSolver.hpp:evaluateConservativeCache"]}
{"id": "C67", "title": "Nearest-neighbour mappings give the same values in parallel as in serial", "statement": "When a parallel participant receives a mesh and has nearest-neighbour mappings from or to it, every rank keeps a part of the mesh that contains, for each vertex of its own meshes, a vertex that is nearest in the whole received mesh, provided a nearest vertex lies within the safety factor or the geometric filter is off. So reading gives the value of a nearest vertex of the whole mesh, writing adds each value to a nearest vertex of the whole mesh and the sum over all ranks is preserved, and where nearest vertices are unique the result is that of a serial run. Two-level initialization leads to the same filtered vertices as one-level initialization.", "quantifier": "all meshes, distributions to any number of ranks, data, safety factors, filter settings and schedules", "why_tests_cant": "Tests use a few partitions with matching meshes; the claim ranges over all geometries, partitions and message orders.", "anchors": ["src/partition/ReceivedPartition.cpp:compute", "src/partition/ReceivedPartition.cpp:filterByBoundingBox", "src/partition/ReceivedPartition.cpp:prepareBoundingBox", "src/partition/ReceivedPartition.cpp:tagMeshFirstRound", "src/partition/ReceivedPartition.cpp:compareBoundingBoxes", "src/mapping/NearestNeighborBaseMapping.cpp:tagMeshFirstRound"]}
{"id": "C68", "title": "The QR factorization of the quasi-Newton accelerations stays a factorization", "statement": "After every sequence of insertions and deletions of columns at any position, rebuilds and filterings, the factors Q and R that the quasi-Newton accelerations keep are a QR factorization of exactly the columns that were not reported as refused or removed: Q has orthonormal columns, R is upper triangular without a zero on its diagonal and QR is the matrix. A column is refused without a filter if and only if it depends linearly on the others. Solving with the factors gives the least-squares coefficients.", "quantifier": "all columns, positions, histories of calls, filter decisions and numbers of re-orthogonalizations (exact arithmetic over any field with the square roots needed)", "why_tests_cant": "Tests factorize a few small matrices; the updates by rotations must hold for every matrix, position and history.", "anchors": ["src/acceleration/impl/QRFactorization.cpp:insertColumn", "src/acceleration/impl/QRFactorization.cpp:deleteColumn", "src/acceleration/impl/QRFactorization.cpp:orthogonalize", "src/acceleration/impl/QRFactorization.cpp:computeReflector", "src/acceleration/impl/QRFactorization.cpp:applyReflector", "src/acceleration/impl/QRFactorization.cpp:applyFilter", "src/acceleration/impl/QRFactorization.cpp:reset"]}
{"id": "C69", "title": "Quasi-Newton steps are least-squares steps and solve linear problems", "statement": "With IQN-ILS acceleration the first iteration is an under-relaxation and every other one adds to the new values the combination of observed differences of new values whose coefficients minimize the weighted norm of the residual, with linearly independent columns that are all differences of two consecutive iterations of one time window. The weights of every preconditioner can be undone. If the solvers are linear, values become a solution as soon as the differences span the residual, a solution is kept, and with a constant preconditioner and no filter a problem with n primary unknowns is solved after at most n + 1 iterations without any failure.", "quantifier": "all configurations, sequences of iterations and converged windows, values, filter decisions and preconditioners; all linear solvers for which I - A vanishes in no direction (exact arithmetic)", "why_tests_cant": "Tests compare a few iterations with stored numbers; the claim ranges over all histories, values and solvers.", "anchors": ["src/acceleration/BaseQNAcceleration.cpp:performAcceleration", "src/acceleration/BaseQNAcceleration.cpp:updateDifferenceMatrices", "src/acceleration/BaseQNAcceleration.cpp:iterationsConverged", "src/acceleration/IQNILSAcceleration.cpp:computeQNUpdate", "src/acceleration/impl/Preconditioner.hpp:update", "src/acceleration/impl/ResidualSumPreconditioner.cpp:_update_", "src/acceleration/impl/ValuePreconditioner.cpp:_update_", "src/acceleration/impl/ResidualPreconditioner.cpp:_update_"]}
{"id": "C70", "title": "Data actions scale and sum up exactly the samples they should", "statement": "The actions multiply-by-area and divide-by-area treat every stored sample of their data and touch no other data; multiplied values sum up to the integral of the piecewise linear function, and dividing undoes multiplying. The summation action stores for every time of its sources the sum of their values, keeps all other samples and never adds values of different times. Received data that is not mapped is scaled exactly once per window: all its samples with substeps, the one at the end without. This fails for the values at the start of a window in several configurations (see findings).", "quantifier": "all meshes, data, values, sets of samples, numbers of sources and lists of actions; all calls of advance at the end of a window with arbitrary stored samples; for the refutation all numbers of iterations", "why_tests_cant": "Tests apply each action once to one sample on one small mesh; repeated iterations and windows multiply the effect.", "anchors": ["src/action/ScaleByAreaAction.cpp:performAction", "src/action/SummationAction.cpp:performAction", "src/precice/impl/ParticipantImpl.cpp:performDataActions", "src/precice/impl/ParticipantImpl.cpp:handleDataBeforeAdvance", "src/precice/impl/ParticipantImpl.cpp:handleDataAfterAdvance", "src/precice/impl/ParticipantImpl.cpp:initialize"]}
{"id": "C71", "title": "Participants coupled by many explicit schemes never wait for each other forever", "statement": "Any number of participants, each with several serial-explicit and parallel-explicit couplings of the same window size, never deadlock in initialize or advance, if the couplings form trees (any schemes, any initial data, any order), or if serial couplings lead from one level to the next and parallel ones stay on a level and initial data is exchanged before waiting, or in general if there is a timetable of the exchanges that everybody keeps. When all have finished no message is left. It fails for a ring of serial couplings, which waits in initialize, and it can depend on the order in which the couplings are configured (see findings).", "quantifier": "all numbers of participants and couplings, all configured orders, all solvers whose steps are the largest allowed or clearly shorter, all values and measures, all interleavings, with sends that wait for the receiver and sends that do not", "why_tests_cant": "Tests couple two or three participants in one order and see one interleaving.", "anchors": ["src/cplscheme/config/CouplingSchemeConfiguration.cpp:addCouplingScheme", "src/cplscheme/CompositionalCouplingScheme.cpp:initialize", "src/cplscheme/CompositionalCouplingScheme.cpp:firstExchange", "src/cplscheme/CompositionalCouplingScheme.cpp:secondExchange", "src/cplscheme/SerialCouplingScheme.cpp:exchangeFirstData", "src/cplscheme/ParallelCouplingScheme.cpp:exchangeFirstData"]}
{"id": "C72", "title": "Exactly the configurations that fit the definition of the tags are accepted, and nothing in them is lost", "statement": "A configuration is accepted if and only if every tag is one of the defined subtags of the tag around it, every attribute written is defined, every attribute has a readable value among its options or a default, and every subtag occurs as often as its definition says. The code that builds the coupling is then told about all tags, with all values, in the order of the document, and about the end of each tag after its subtags. What was read before, in other tags or in another configuration, makes no difference. It fails for alternatives in a namespace: required ones are all required although the message says one is enough, a required subtag with the namespace of its parent may be missing, and a limit of one does not hold for the group (see findings).", "quantifier": "all definitions with different names for subtags, in all states left by earlier reading; all documents; all readers of values that do not depend on the old value", "why_tests_cant": "Tests read some configurations with a fresh definition and do not see what all other documents do.", "anchors": ["src/xml/ConfigParser.cpp:connectTags", "src/xml/ConfigParser.cpp:OnStartElement", "src/xml/ConfigParser.cpp:OnEndElement", "src/xml/XMLTag.cpp:readAttributes", "src/xml/XMLTag.cpp:areAllSubtagsConfigured", "src/xml/XMLTag.cpp:resetAttributes", "src/xml/XMLTag.cpp:addSubtag", "src/xml/XMLAttribute.hpp:readValue"]}
{"id": "C73", "title": "Numbers in the configuration are read as they are written", "statement": "Every integer, decimal number (with sign, point and exponent), fraction of two numbers and vector separated by semicolons that is written in an attribute is read with exactly its value, whatever locale the machine has and whatever was read before, and text with trailing characters is rejected. Words are true exactly if they are 1, yes, true or on in any case. Any text comes back when its characters are written with XML escapes. It fails for blank texts, which keep the value of an earlier tag or are undefined, for a decimal comma, which is dropped if the locale en_US exists, for numbers that are broken off, which are 0, for integers that do not fit, which are changed, and for texts that look like escapes (see findings).", "quantifier": "all texts, all numbers of any length, both kinds of locales, all previous values", "why_tests_cant": "Tests read a few literals on machines with one locale.", "anchors": ["src/xml/ValueParser.cpp:parseDouble", "src/xml/ValueParser.cpp:readValueSpecific", "src/xml/ValueParser.hpp:readValueSpecific", "src/utils/String.cpp:convertStringToBool", "src/xml/ConfigParser.cpp:decodeXML"]}
{"id": "C74", "title": "Watch files and exports contain exactly the completed windows", "statement": "Whatever steps, substeps and repeated iterations a participant makes, the files of its watch points and watch integrals have one complete row at time 0 and one at the end of every completed window, in order; mesh exports every N windows write the initial state and the windows N, 2N, ... with these times, and the series file lists exactly the written files when the coupling has ended. Exactly one rank writes a watch point, a closest one, and the row of a linear field is its value at the coordinate in the row; watch integrals of parallel runs equal those of a serial run on the whole mesh. It fails for the series file of exports of every iteration, for watch integrals after remeshing, for scaled integrals and areas if a rank has vertices but no edges, for watch points on meshes without vertices, and for ranks that lose their vertices in remeshing (see findings).", "quantifier": "all histories of API calls with fixed windows, all numbers of ranks, all partitions of a mesh, all data, all sequences of exports", "why_tests_cant": "Tests make a few steps on one or two ranks where every rank has edges and compare files of two or three rows.", "anchors": ["src/precice/impl/ParticipantState.cpp:exportIntermediate", "src/precice/impl/ParticipantImpl.cpp:handleExports", "src/precice/impl/WatchPoint.cpp", "src/precice/impl/WatchIntegral.cpp", "src/io/TXTTableWriter.cpp", "src/io/Export.cpp"]}
{"id": "C75", "title": "Geometric multiscale mappings reach the closest vertices and preserve values", "statement": "Radial: if the vertices of the 1D mesh are given in ascending order along the axis, spreading gives every vertex of the other mesh the value of the 1D vertex that is closest along the axis, collecting gives every 1D vertex the mean of the vertices closest to it, and what is spread and collected comes back. Axial: spreading gives the uniform value or the parabola with that mean value on the configured radius, vertices beyond 1.05 radii are refused, collecting gives the mean; between a line and a volume every vertex belongs to its closest vertex, uniform values come back and the position of the meshes does not matter. It fails for 1D vertices in another order (reads behind the end or wrong values), for components other than the mapped one (zero), for 1D vertices without partners (NaN or zero), for vertices between 1 and 1.05 radii (opposite sign), for parabolas on a line with a square cross section (reads behind the end), for the radius of parabolas between a line and a volume (ignored), for squares away from the origin, and for collecting what was spread as a parabola (see findings).", "quantifier": "all meshes, all data of all dimensions, all radii, profiles and cross sections", "why_tests_cant": "Tests use a handful of vertices, in ascending order, around the origin.", "anchors": ["src/mapping/RadialGeoMultiscaleMapping.cpp:computeMapping", "src/mapping/RadialGeoMultiscaleMapping.cpp:mapConsistent", "src/mapping/AxialGeoMultiscaleMapping.cpp:computeMapping", "src/mapping/AxialGeoMultiscaleMapping.cpp:mapConsistent"]}
{"id": "C76", "title": "Accepted configuration files fit together", "statement": "If a configuration file is accepted: every exchange is between two different participants of its scheme which both use the mesh, the mesh has the data, and outside multi schemes the two are connected; each participant gets its own part of each scheme it is in, and what one part sends its partner expects in the same order with the same flags; whoever reads the file gets the same result; in one scheme no data is sent and received or received from two; data that is measured or accelerated is exchanged by the participant that does it; nobody is in two implicit schemes, and implicit schemes without measures have a limit; mappings lead from received to provided meshes for reading and the other way for writing, map exactly the data their tags ask for and fill no data twice; if the mesh of an exchange is provided by one of the two and received from there by the other, both ends have a channel for it. Reading runs into assertions only if a mesh is defined twice or a convergence measure names unknown data.", "quantifier": "all configuration files (all data, meshes, participants, mappings, connections and coupling schemes in any number) and all readers", "why_tests_cant": "Tests read a few dozen files, most of them right; that no accepted file is inconsistent ranges over all files.", "anchors": ["src/precice/config/Configuration.cpp:xmlEndTagCallback", "src/precice/config/Configuration.cpp:configurePartitionsFor", "src/precice/config/ParticipantConfiguration.cpp:finishParticipantConfiguration", "src/cplscheme/config/CouplingSchemeConfiguration.cpp:xmlEndTagCallback", "src/cplscheme/config/CouplingSchemeConfiguration.cpp:addDataToBeExchanged", "src/mapping/config/MappingConfiguration.cpp:checkDuplicates"]}
{"id": "C77", "title": "Exported files contain the mesh and the data", "statement": "A program that reads an exported VTU, VTP, VTK or CSV file gets the vertices in the order in which they were defined, the connectivity, the rank and the last values of each data that has values; the derivative arrays hold the derivatives in the order in which the user gave them. In parallel, the listing written by the first rank names exactly the pieces that were written, each piece has exactly the declared arrays, and no two files of a mesh have the same name for any window, iteration and rank.", "quantifier": "all meshes of any size in 2D and 3D with any connectivity and any data, all ranks and partitions including empty ones, all values and ways to print numbers", "why_tests_cant": "Tests look at a few files or only at their existence; that the reader of any file gets the mesh back ranges over all meshes and data.", "anchors": ["src/io/ExportXML.cpp:doExport", "src/io/ExportXML.cpp:writeParallelFile", "src/io/ExportXML.cpp:exportData", "src/io/ExportVTU.cpp:exportConnectivity", "src/io/ExportVTP.cpp:exportConnectivity", "src/io/ExportVTK.cpp:doExport", "src/io/ExportCSV.cpp:doExport", "src/mesh/Mesh.cpp:isPartitionEmpty"]}
{"id": "C78", "title": "Gradients arrive at the mapping as they were written", "statement": "Each vertex holds the value and the gradient that were written to it last in a step, within a call too, and zeros if nothing was written; vertices set in between change nothing else; gradients of data that does not require them are ignored. A nearest-neighbour-gradient mapping then gives each target vertex the value of a nearest source vertex plus its derivatives times the offset, so that linear functions written with their derivatives in the documented order are reproduced.", "quantifier": "all sequences of calls that set vertices and write values and gradients, all meshes of any size in 2D and 3D, all data dimensions, all values", "why_tests_cant": "Tests write few vertices once and use constant or symmetric gradients; that the memory layout of the API and of the mapping agree ranges over all calls and Jacobians.", "anchors": ["src/precice/Participant.hpp:writeGradientData", "src/precice/impl/ParticipantImpl.cpp:writeGradientData", "src/precice/impl/ParticipantImpl.cpp:resetMesh", "src/precice/impl/WriteDataContext.cpp:writeGradientsIntoDataBuffer", "src/precice/impl/WriteDataContext.cpp:resizeBufferTo", "src/precice/impl/WriteDataContext.cpp:resetBufferedData", "src/precice/impl/DataContext.cpp:mapData", "src/mapping/NearestNeighborGradientMapping.cpp:mapConsistent"]}
{"id": "C79", "title": "Reading and writing at coordinates uses the current mesh, the current data and each call once", "statement": "mapAndReadData gives for each of the coordinates the value of a nearest vertex of the mesh as received last, sampled from the data as received last at the requested time or at a time read before in the same window that differs by at most 1e-14. What advance stores for the partner is, for each vertex, the sum of all values given to writeAndMapData since the last step at coordinates that are mapped to this vertex, each to a nearest one, so nothing is lost or counted twice. Coarse graining gives each vertex within the radius the value times a function of the distance that is nonnegative, decreasing, zero from the radius on and of integral one. Calls are refused exactly if the time is outside of the window, the sizes do not fit or the mesh is empty.", "quantifier": "all sequences of mapAndReadData, writeAndMapData and advance, with any coordinates, values, times and exchanged meshes, all received data, all data dimensions, all radii", "why_tests_cant": "Tests make a few calls per window; that the cache never gives old values and that no written value is lost or kept ranges over all sequences of calls.", "anchors": ["src/precice/impl/ParticipantImpl.cpp:mapAndReadData", "src/precice/impl/ParticipantImpl.cpp:writeAndMapData", "src/precice/impl/ParticipantImpl.cpp:advance", "src/precice/impl/ReadDataContext.cpp:mapAndReadValues", "src/precice/impl/WriteDataContext.cpp:writeAndMapValues", "src/mapping/impl/MappingDataCache.hpp:MappingDataCache", "src/mapping/NearestNeighborMapping.cpp:mapConsistentAt", "src/mapping/NearestNeighborMapping.cpp:mapConservativeAt", "src/mapping/CoarseGrainingMapping.cpp:mapConservativeAt"]}
{"id": "C80", "title": "The clusters of partition-of-unity mappings cover what is mapped", "statement": "With project-to-input off and a positive relative overlap below one, each output vertex, and each coordinate of a just-in-time mapping, that is in the bounding box of the input mesh and has an input vertex closer than overlap times cluster radius is in a cluster. So there is no error if the output vertices are among the input vertices, nor at input vertices, as long as fewer vertices share a place than go into a cluster. With and without projection, no cluster lacks input or output vertices, projected centers are input vertices, of adjacent ones that are too close all but one are removed and nothing else, and the mapping reports an error for a coordinate exactly if it is in no cluster.", "quantifier": "all meshes of both dimensions, all overlaps, all numbers of vertices per cluster, all coordinates, all correct searches for nearest vertices", "why_tests_cant": "Tests use regular meshes with one or two settings; that a grid of spheres around sampled radii leaves no gap is a statement about all meshes and parameters.", "anchors": ["src/mapping/impl/CreateClustering.hpp:createClustering", "src/mapping/impl/CreateClustering.hpp:estimateClusterRadius", "src/mapping/impl/CreateClustering.hpp:tagEmptyClusters", "src/mapping/impl/CreateClustering.hpp:tagDuplicateCenters", "src/mapping/impl/CreateClustering.hpp:projectClusterCentersToinputMesh", "src/mapping/PartitionOfUnityMapping.hpp:computeNormalizedWeight"]}
{"id": "C81", "title": "IQN-IMVJ keeps a Jacobian that fits what was observed", "statement": "After the initial relaxation, each update of the multi-vector Jacobian acceleration adds to the output of the solvers the Jacobian of the earlier windows, updated with the differences of the iterations so far, times the negative residual. In efficient and restart mode, the Jacobian that a window leaves maps all its differences of residuals to its differences of values, provided the pseudo-inverse is one, and agrees with the Jacobian before on everything else. Restarts with RS-0 forget it, with RS-LS leave one that fits the columns kept for it, with RS-SVD leave it as it is if the decomposition is exact and the weights did not change.", "quantifier": "all histories of iterations and windows, all values, all numbers of columns and windows reused, all results of filters and factorizations, all fields", "why_tests_cant": "Tests look at a few windows of one small system; that the stored low-rank pairs, flags and backups stay consistent concerns all histories.", "anchors": ["src/acceleration/IQNIMVJAcceleration.cpp:computeNewtonUpdateEfficient", "src/acceleration/IQNIMVJAcceleration.cpp:computeNewtonUpdate", "src/acceleration/IQNIMVJAcceleration.cpp:buildWtil", "src/acceleration/IQNIMVJAcceleration.cpp:buildJacobian", "src/acceleration/IQNIMVJAcceleration.cpp:restartIMVJ", "src/acceleration/IQNIMVJAcceleration.cpp:specializedIterationsConverged", "src/acceleration/BaseQNAcceleration.cpp:performAcceleration", "src/acceleration/BaseQNAcceleration.cpp:iterationsConverged"]}
{"id": "C82", "title": "Products of distributed matrices are those of the whole matrices", "statement": "The multi-vector Jacobian acceleration multiplies matrices whose rows or columns are distributed over the ranks of a participant. Handing the blocks round the ring of ranks never blocks, always ends, fits into all buffers, leaves no message behind and gives every rank all rows of the product of the whole left matrix with its own part of the right one, also if some ranks have no vertices. The products computed by scalar products or by blocks give each rank exactly its own rows of the product of the whole matrices, and small products are the same at all ranks.", "quantifier": "all numbers of ranks, all distributions of rows including empty ranks, all matrices, all orders in which ranks proceed and messages arrive", "why_tests_cant": "Tests run one matrix on four ranks with one schedule; deadlocks and mixed-up blocks depend on the schedule and on which ranks are empty.", "anchors": ["src/acceleration/impl/ParallelMatrixOperations.hpp:multiply", "src/acceleration/impl/ParallelMatrixOperations.hpp:_multiply_cyclic", "src/acceleration/impl/ParallelMatrixOperations.hpp:_multiplyNM_dotProduct", "src/acceleration/impl/ParallelMatrixOperations.hpp:_multiplyNM_block"]}
{"id": "C83", "title": "The profiling file tells what happened, in order, also after a crash", "statement": "With profiling switched on, the file of a rank has, in the order in which they happened, the start and the end of the construction, of the solver's phases, of initialize, advance and finalize, of all sections of the user and, as far as the mode admits them, of all events inside and their data; names are announced before they are used and times never decrease. If the program stops early, the file has the beginning of that, and at the end of a section at most as many records are missing as configured. After finalize the file has all of it and does not change any more; sections are properly nested and closed if initialize was called. Sections can be started and stopped exactly as documented: stopping without starting and open sections at initialize or advance are errors. Switched off, no file is written.", "quantifier": "all modes, all numbers of records to keep, all sequences of calls, all events that happen inside calls, all points where the program stops", "why_tests_cant": "Tests write one file with one order of calls and do not read it back; what is lost when the program stops depends on when the buffer was last written.", "anchors": ["src/profiling/EventUtils.cpp:EventRegistry", "src/profiling/Event.cpp:Event", "src/profiling/config/ProfilingConfiguration.cpp:xmlTagCallback", "src/precice/impl/ParticipantImpl.cpp:startProfilingSection", "src/precice/impl/ParticipantImpl.cpp:stopLastProfilingSection", "src/precice/impl/ParticipantImpl.cpp:finalize"]}
{"id": "C84", "title": "Quasi-Newton acceleration of several time steps keeps every value in its place", "statement": "With quasi-Newton acceleration, the values of all data at all steps of a window are accelerated together. The steps are those of the first window that takes more than one iteration, moved to the window at hand: they begin and end with the window, are always as many and keep their relative distances. In every iteration of every window the vectors have exactly the values of the data of this and of the last iteration at these steps, in the same order, nothing is left over from before and no access is out of bounds; afterwards the data have exactly these steps with the updated values, the value at the beginning of the window is kept and other data are not touched. In parallel the numbers of unknowns agree with the offsets of the ranks. Data with these steps are left as they are by an update that changes nothing.", "quantifier": "all numbers of data, steps, windows and iterations, all lengths of windows, all times of steps, all values and updates, with and without reduction to the last step", "why_tests_cant": "Tests use few windows of the same length with the same steps; mixed-up values only show up as slow convergence.", "anchors": ["src/time/TimeGrids.cpp:moveTimeGridToNewWindow", "src/time/TimeGrids.cpp:getTimeGridAfter", "src/acceleration/BaseQNAcceleration.cpp:concatenateCouplingData", "src/acceleration/BaseQNAcceleration.cpp:updateCouplingData", "src/acceleration/BaseQNAcceleration.cpp:initializeVectorsAndPreconditioner", "src/acceleration/BaseQNAcceleration.cpp:performAcceleration"]}
{"id": "C85", "title": "The C and Fortran bindings do what the C++ interface does", "statement": "A solver that uses the C or the Fortran bindings sees what the same solver written in C++ sees, call by call: names arrive as they are meant (up to the NUL in C, without the padding in Fortran), arrays are read with exactly the entries that belong to the given number of vertices or elements, results are written to the beginning of the given arrays and nothing behind is changed, answers are 1 or 0. Where the C++ program gets an error, the other ones are aborted, also for calls before the creation, after finalize, and for a second creation.", "quantifier": "all implementations behind the interface, all programs, all names, all arrays, all contents of the memory behind texts and arrays, all paddings", "why_tests_cant": "The bindings are tested with few calls; wrong lengths read or write memory that happens to be there.", "anchors": ["extras/bindings/c/src/preciceC.cpp:precicec_writeData", "extras/bindings/c/src/preciceC.cpp:precicec_getMaxTimeStepSize", "extras/bindings/fortran/src/preciceFortran.cpp:precicef_create_", "extras/bindings/fortran/src/preciceFortran.cpp:strippedLength", "extras/bindings/fortran/src/preciceFortran.cpp:precicef_set_tetrahedron", "src/precice/Participant.cpp:toSV"]}
{"id": "C86", "title": "The truncated singular value decomposition loses only what it reports", "statement": "The decomposition of the RS-SVD restart stands for the sum of all products A * B^T it was updated with. Each update yields the leading part of a singular value decomposition of the matrix before plus the new product, with orthonormal columns on both sides; values below the threshold are cut off, no others, they are counted, and the squared difference is the sum of their squares. If getWaste reports nothing over any sequence of updates, then the matrix handed back to the acceleration is exactly the sum.", "quantifier": "all fields of numbers with square roots where needed, all sizes, all sequences of updates, resets and queries, all matrices with at most as many columns as rows, all thresholds", "why_tests_cant": "Tests compare a few decompositions; that no part of a product is lost in any sequence of updates with linearly dependent columns is a statement about all sequences.", "anchors": ["src/acceleration/impl/SVDFactorization.hpp:update", "src/acceleration/impl/SVDFactorization.cpp:computeQRdecomposition", "src/acceleration/impl/SVDFactorization.cpp:getWaste", "src/acceleration/IQNIMVJAcceleration.cpp:restartIMVJ"]}
{"id": "C87", "title": "Radial basis functions have the support radius that is configured", "statement": "A compact polynomial or compact thin plate spline created from a support radius has exactly that radius: it is positive up to the radius, zero from there on, and nearer vertices always count more than vertices further away. The polynomials C0 to C8 are Wendland's functions for three dimensions. A Gaussian may be given by shape parameter or support radius, never both; it is cut off where it falls to 1e-9, which is the support radius. Values do not depend on the unit of length. The functions that are said to be strictly positive definite are those whose matrix of any two vertices is positive definite. Support radii that are not positive are refused, by the Gaussian the negative ones, and so are such shape parameters of the Gaussian and of inverse multiquadrics.", "quantifier": "all basis functions, all real support radii and shape parameters, all distances, all scalings", "why_tests_cant": "Tests evaluate the functions at a few distances; monotonicity, positivity and the chain of derivatives are statements about all real numbers.", "anchors": ["src/mapping/impl/BasisFunctions.hpp:CompactPolynomialC6", "src/mapping/impl/BasisFunctions.hpp:CompactThinPlateSplinesC2", "src/mapping/impl/BasisFunctions.hpp:Gaussian", "src/mapping/config/MappingConfiguration.cpp:constructRBF", "src/mapping/config/MappingConfiguration.cpp:xmlTagCallback", "src/math/math.hpp:pow_int"]}
{"id": "C88", "title": "Data actions are the ones of the configuration", "statement": "Each action tag whose subtags occur as documented and which names an existing mesh and existing data of it yields one action with that type, timing, mesh, source and target data; every other tag is refused. A participant has its actions in the order of the configuration, all on meshes it uses, and performs those of a timing in this order. A Python action calls the script once for each sample of its target, in order, with the time, the source values of the same time and the target values, stores what the script makes of them, and changes no other data.", "quantifier": "all action tags with any subtags, all meshes with unique names and data, all sequences of actions, all scripts, all stored samples", "why_tests_cant": "Tests configure a few correct actions; that no combination of subtags, names and samples yields another action or a wrong call is a statement about all of them.", "anchors": ["src/action/config/ActionConfiguration.cpp:createAction", "src/action/config/ActionConfiguration.cpp:xmlTagCallback", "src/action/PythonAction.cpp:performAction", "src/xml/ConfigParser.cpp:connectTags", "src/precice/config/ParticipantConfiguration.cpp:finishParticipantConfiguration", "src/precice/impl/ParticipantImpl.cpp:performDataActions"]}
{"id": "C89", "title": "Every mapping has the method and the parameters of its own tag", "statement": "A sequence of mapping tags is accepted exactly if each of them is: only attributes, basis functions and executors the tag has, no tag twice, exactly one basis function where one is needed, readable device numbers, a constraint and a just-in-time use the method supports, a build with what the executor needs. Each mapping then has the type, constraint, polynomial, dead axes, tolerance, clusters, basis function, support radius or shape parameter, executor, device, threads and execution mode of its own tag, defaults where nothing is given, and nothing of any tag before it. Everything else is refused with an error message.", "quantifier": "all sequences of mapping tags with any attributes and subtags, in any order, all builds", "why_tests_cant": "The configuration keeps the radial basis function, the executor and the constraint in members that all mappings share; tests configure a few files, that no sequence leaks a parameter into a later mapping is a statement about all sequences.", "anchors": ["src/mapping/config/MappingConfiguration.cpp:xmlTagCallback", "src/mapping/config/MappingConfiguration.cpp:xmlEndTagCallback", "src/mapping/config/MappingConfiguration.cpp:configureRBFMapping", "src/mapping/config/MappingConfiguration.cpp:createMapping", "src/mapping/config/MappingConfiguration.cpp:finishRBFConfiguration", "src/xml/ConfigParser.cpp:connectTags"]}
{"id": "C90", "title": "Meshes and data have numbers of their own", "statement": "Whatever numbers were given and inserted before, in any order, a new number is the smallest one not in use since the last reset, a number is inserted exactly if it is not in use, no number is in use twice and the search for a new one always ends. Hence the meshes of a configuration are numbered in the order of their tags, and so are the data of all meshes together: no two meshes and no two data, also of different meshes, share a number.", "quantifier": "all histories of requests, insertions and resets of up to 2^30-1 calls, all sequences of mesh tags using any data", "why_tests_cant": "The one unit test makes four calls; uniqueness is a statement about all histories, and buffers, mappings and communications address data by these numbers.", "anchors": ["src/utils/ManageUniqueIDs.cpp:getFreeID", "src/utils/ManageUniqueIDs.cpp:insertID", "src/utils/ManageUniqueIDs.cpp:resetIDs", "src/mesh/config/MeshConfiguration.cpp:xmlTagCallback"]}
