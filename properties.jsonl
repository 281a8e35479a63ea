{"id": "C01", "title": "2D Morton codes are a faithful, order-preserving address for tiles", "statement": "Encoding a 2D tile coordinate and decoding the code returns the same coordinate as long as both components fit in 16 bits, every 32-bit code is the code of exactly one such coordinate and distinct coordinates never share a code; codes of a 2^k square stay below 4^k. Outside that range the code silently aliases the coordinate taken modulo 2^16.", "quantifier": "every coordinate pair in [0,2^16)^2 and every 32-bit code; and the failure side for coordinates >= 2^16", "why_tests_cant": "2^32 pairs of coordinates; a table of samples cannot rule out one wrong shift/mask constant for some bit combination", "anchors": ["source/MortonCodes.hpp:8-86 (part_1_by_1, compact_1_by_1, encode_morton_2, decode_morton_2)"]}
{"id": "C02", "title": "3D Morton codes are a faithful address for tiles", "statement": "Encoding a 3D tile coordinate (each component below 2^10) and decoding returns it; every code below 2^30 is the code of exactly one such coordinate; distinct coordinates get distinct codes. Components >= 2^10 alias.", "quantifier": "every coordinate triple in [0,2^10)^3 and every code in [0,2^30)", "why_tests_cant": "2^30 triples and bit-twiddling constants that may be wrong only for rare bits", "anchors": ["source/MortonCodes.hpp:30-86 (part_1_by_2, compact_1_by_2, encode_morton_3, decode_morton_3)"]}
{"id": "C03", "title": "The block map activates exactly the tiles that contain a cool enough cell", "statement": "After building a block map from an atmosphere and a cutoff temperature, the list of active tiles is strictly increasing in Morton order, contains each tile at most once, and contains a tile iff the cutoff is disabled (0) or at least one cell of that tile has temperature <= cutoff. Building from the explicit list saved in a sparse file gives the same lookup.", "quantifier": "every grid size (multiple of the block size), every temperature field and cutoff, 2D and 3D", "why_tests_cant": "the set of grids and temperature fields is unbounded; an off-by-one tile edge shows only for special fields", "anchors": ["source/BlockMap.cpp:7-304 (setup_dense, setup_sparse)", "source/BlockMap.cpp:327-423"]}
{"id": "C04", "title": "Lookup table and active list are mutually inverse", "statement": "Expected: for every tile of the grid, the tile lookup returns the position of the tile in the active list if it is active and -1 otherwise; conversely decoding the k-th active entry and looking it up returns k; the number of active tiles equals the number of tiles whose lookup is non-negative. Proved for grids up to 2^16 (3D: 2^10) tiles a side. Violated: wider grids are accepted and lose tiles.", "quantifier": "every grid size, every activity pattern, 2D and 3D", "why_tests_cant": "unbounded combinations of tile activity; needs an inductive rank argument", "anchors": ["source/BlockMap.cpp:7-304", "source/BlockMap.hpp:100-230"]}
{"id": "C05", "title": "Flat storage index is a bijection between active cells and [0, num_active_cells)", "statement": "For every active tile index and within-block index the flat index of the corresponding grid coordinate equals tile*block_cells + block index; every flat index in [0, num_active_cells) is the index of exactly one grid cell, and cells in inactive tiles are never assigned an index.", "quantifier": "every grid size, activity pattern, tile and cell, 2D and 3D", "why_tests_cant": "a collision or gap occurs for particular sparse patterns only; exhaustive sampling of patterns is impossible", "anchors": ["source/BlockMap.hpp:448-702 (IndexGen::loop_idx, loop_coord, idx, has_leaves)"]}
{"id": "C06", "title": "The one-tile cache in the index generator never changes an answer", "statement": "The index and has-leaves answers for an in-grid coordinate are the same whatever sequence of earlier queries the generator has served. A fresh generator queried at a coordinate just outside the negative corner of the grid wrongly reports data (documented counterexample).", "quantifier": "every history of queries (any length, any in-grid coordinates) followed by any in-grid query", "why_tests_cant": "histories are unbounded; stale cache bugs appear only for particular query orders", "anchors": ["source/BlockMap.hpp:448-702 (IndexGen tile_key cache)"]}
{"id": "C07", "title": "Grids whose size is not a multiple of the block size are rejected, others accepted", "statement": "Expected: building a block map throws iff some dimension is not a multiple of the block size or the number of active cells exceeds the 32-bit limit, and an accepted map covers every cell. Proved when the number of tiles fits in 32 bits. Violated: if the number of tiles itself exceeds the 32-bit limit, the product of the tile counts overflows (undefined behaviour) before any check.", "quantifier": "every pair/triple of dimensions", "why_tests_cant": "all integer dimensions; acceptance must imply coverage of every cell", "anchors": ["source/BlockMap.cpp:7-304"]}
{"id": "C08", "title": "Packed per-tile refinement levels are stored and read back independently", "statement": "Packing per-tile mip levels (3 bits each, 21 per 64-bit word) and reading tile t back returns exactly the level packed for t, for all tiles, and no tile's value disturbs another's.", "quantifier": "every number of tiles and every assignment of levels in [0,7]", "why_tests_cant": "all assignments; carry/shift errors appear only on word boundaries", "anchors": ["source/BlockMap.hpp:231-398 (MultiLevelLookup::pack_entries, get)"]}
{"id": "C09", "title": "The hyperblock tile numbering is a permutation of the tiles", "statement": "The 2x2-hyperblock flat index maps the tiles of an even-by-even grid one-to-one onto [0, nx*nz); an odd tile count is rejected.", "quantifier": "every even grid size and every tile", "why_tests_cant": "unbounded sizes", "anchors": ["source/BlockMap.hpp:231-398 (flat_tile_index, init)"]}
{"id": "C10", "title": "Mip levels occupy disjoint, gap-free storage", "statement": "The flat index ranges of the mip levels are consecutive, pairwise disjoint and together exactly fill the reported buffer length; within each level the index is a bijection between the active voxels of that level and its range; a request for more levels than can be encoded (7) is rejected. Expected further: a level coarser than a block is rejected too. Violated: it is accepted, has no storage, and its voxels index one past the end of the buffer.", "quantifier": "every activity pattern, every max mip level supported by the block size, every voxel, 2D and 3D", "why_tests_cant": "offset arithmetic must be right for all counts; overlaps silently corrupt data", "anchors": ["source/BlockMap.hpp:407-444 (MultiResBlockMap::init)", "source/BlockMap.hpp:718-1015 (MultiLevelIndexGen)"]}
{"id": "C11", "title": "The level used while marching never depends on earlier samples", "statement": "Clamping the sampled level to the cascade's maximum mip and indexing with it gives the same level and the same storage index for a coordinate whatever was queried before through that traversal.", "quantifier": "every query history produced by a traversal with a fixed maximum level", "why_tests_cant": "the cached level is overwritten by reads; only an invariant over all histories shows that this is harmless", "anchors": ["source/BlockMap.hpp:718-1015 (get_sample_level, idx)", "source/BlockMap.hpp:1027-1326"]}
{"id": "C12", "title": "Writing sparse results as dense grids preserves every active value", "statement": "Expanding a sparse quantity to the dense grid puts each active cell's value at its own coordinate and zero in every inactive cell; sparsifying a dense field and expanding it again returns the field on active cells.", "quantifier": "every grid, activity pattern, field (2D; 3D host path)", "why_tests_cant": "all patterns and fields", "anchors": ["source/MiscSparse.cpp:7-292 (rehydrate_sparse_quantity, sparsify)", "source/MiscSparse.cpp:126-179"]}
{"id": "C13", "title": "3D device expansion of multi-row quantities covers the whole grid", "statement": "Expected: the 3D expansion of a [n, cells] device quantity writes every cell of every row. Violated: its y loop tests z, so on every non-empty grid the call indexes the result array out of bounds.", "quantifier": "every 3D grid size", "why_tests_cant": "the failing loop depends on the relation between z and the number of rows", "anchors": ["source/MiscSparse.cpp:180-236 (rehydrate_sparse_quantity 3D, Fp2d)"]}
{"id": "C14", "title": "2D sparse solution: every probe a merge reads has been computed", "statement": "When cascades are computed only on active probes, expected: each upper-cascade probe that receives a non-zero interpolation weight from a computed lower probe is itself computed. Violated: the first interior probe next to the grid edge can be dropped. It holds for every other read (all but upper probe 1 read from a lower probe at index at most 2 on the same axis), and for every read when no tile is empty.", "quantifier": "every activity pattern, every cascade", "why_tests_cant": "only particular patterns touch the grid edge at the right parity", "anchors": ["source/MiscSparse.cpp:294-413 (compute_active_probe_lists 2D)", "source/RcUtilsModes.hpp:285-327", "source/RadianceCascades.hpp:62-87"]}
{"id": "C15", "title": "3D sparse solution: every probe a merge reads has been computed", "statement": "In 3D, each upper-cascade probe read by the trilinear merge of an active lower probe is in the upper active list.", "quantifier": "every activity pattern, grid size and cascade", "why_tests_cant": "all patterns; boundary clamping interacts with parity", "anchors": ["source/MiscSparse.cpp:415-584", "source/RcUtilsModes3d.hpp:262-353"]}
{"id": "C16", "title": "Active probe lists are duplicate-free, Morton sorted and exact", "statement": "The cascade-0 list is exactly the active cells; each upper list is strictly sorted, in grid bounds, and contains a probe iff some covered lower probe in its neighbourhood is active.", "quantifier": "every activity pattern and cascade, 2D and 3D", "why_tests_cant": "all patterns", "anchors": ["source/MiscSparse.cpp:294-584"]}
{"id": "C17", "title": "Dense probe enumeration visits every probe once", "statement": "In dense mode the mapping from linear work index to probe coordinate is a bijection onto the cascade's probes.", "quantifier": "every cascade size, 2D and 3D", "why_tests_cant": "all sizes", "anchors": ["source/Types.hpp:324-382 (DeviceProbesToCompute)", "source/ProbesToCompute.cpp"]}
{"id": "C18", "title": "Cascade storage addresses are collision free and in bounds", "statement": "Within one storage pass, two different (probe, direction, inclination, wavelength) tuples of the same direction subset never share a storage slot; every slot is in [0, allocated entries); without direction-by-direction mode the map is onto.", "quantifier": "every cascade size, index tuple, storage mode, 2D and 3D", "why_tests_cant": "all sizes and tuples; index stride errors are silent", "anchors": ["source/RcUtilsModes.hpp (probe_linear_index, cascade_entries)", "source/RcUtilsModes3d.hpp:360-480"]}
{"id": "C19", "title": "Direction refinement is a partition and stays within its subset", "statement": "Each direction of cascade n+1 is a child of exactly one direction of cascade n, every direction has exactly 2^b children (b the branching factor of that step; in 3D 4^order, the product of the branching factors, or 2 to the sum of the exponents) and their mean angle is its own (2D); in direction-by-direction mode the children of a direction in subset s lie in subset s; the subsets partition the directions.", "quantifier": "every cascade level, direction and branching configuration", "why_tests_cant": "all levels and directions", "anchors": ["source/RcUtilsModes.hpp (upper_texels_per_ray, upper_ray_start_index, nth_rays_subset)", "source/RcUtilsModes3d.hpp:135-190"]}
{"id": "C20", "title": "Cascade intervals tile each ray without gap or overlap", "statement": "The radial interval of cascade n starts exactly where that of cascade n-1 ends, cascade 0 starts at 0 and interval lengths are positive up to the configured last cascade. Violated only for the top cascade when it is extended to MAX_CASCADE_DIST: with enough cascades (8 in the committed configuration) its interval is reversed.", "quantifier": "every cascade count and level (2D and 3D configurations)", "why_tests_cant": "all levels", "anchors": ["source/RcUtilsModes.hpp (cascade_interval_length)", "source/RcUtilsModes3d.hpp (cascade_interval_length_3d)"]}
{"id": "C21", "title": "Probe interpolation weights are a partition of unity and reproduce linear fields", "statement": "For every lower probe the weights over the 4 (8) upper probes are non-negative and sum to one, all addressed upper probes are inside the upper cascade, and away from the clamped edges the interpolation reproduces the lower probe's position exactly.", "quantifier": "every probe coordinate and every (possibly odd) grid size", "why_tests_cant": "all coordinates and parities including degenerate one-probe cascades", "anchors": ["source/RcUtilsModes.hpp:240-330", "source/RcUtilsModes3d.hpp:205-353"]}
{"id": "C22", "title": "Ping-pong cascade buffers never alias and deliver the previous cascade", "statement": "When marching from the last cascade to cascade 0, the buffer written for cascade n differs from the one read, and the buffer read holds what was written for cascade n+1; each buffer is large enough for every cascade.", "quantifier": "every number of cascades", "why_tests_cant": "all cascade counts and sizes", "anchors": ["source/CascadeState.hpp:84-110", "source/CascadeState.cpp"]}
{"id": "C23", "title": "A cascade pass is deterministic under any parallel schedule", "statement": "The result of one cascade pass does not depend on the order in which the parallel iterations execute.", "quantifier": "every permutation of the iteration space", "why_tests_cant": "schedules are exponentially many", "anchors": ["source/RadianceCascades.hpp:616-807"]}
{"id": "C24", "title": "Mean intensity equals the quadrature sum and is placed in the right plane", "statement": "After merging all direction subsets of a wavelength batch, J of each (wavelength, cell) equals the average over cascade-0 directions of the inclination-weighted intensities; other planes are untouched; the result is independent of the order of atomic additions.", "quantifier": "every intensity field, batch position and order", "why_tests_cant": "all orders and batch offsets", "anchors": ["source/MergeToJ.hpp:10-69", "source/DynamicFormalSolution.cpp:405-515"]}
{"id": "C25", "title": "Flattened multi-dimensional loops visit every index tuple exactly once", "statement": "Over [0, total) the loop body is called with each tuple of the N-dimensional iteration space exactly once, in row-major order of the linear index, for loops whose int products stay in range. Violated beyond: rank-2 loops over 2^31 iterations overflow an int product (undefined behaviour), and GPU launches over 2^32 iterations never visit the indices past 2^32.", "quantifier": "every rank 1..6, all extents, all launch strategies", "why_tests_cant": "all extents", "anchors": ["source/LoopUtils.hpp:12-46, 370-468 (FlatLoop)"]}
{"id": "C26", "title": "Host thread partition covers the iteration space exactly once", "statement": "The team/thread split of a flat loop assigns each iteration to exactly one (team, thread, step).", "quantifier": "every iteration count and division parameters", "why_tests_cant": "all counts", "anchors": ["source/LoopUtils.hpp:60-230"]}
{"id": "C27", "title": "Load-balanced wavelength batches are handed out exactly once", "statement": "Once the dispenser has been reset and no request precedes the reset, every wavelength index in [0, la_max) is computed by exactly one rank in exactly one batch, batches never exceed la_max, and every rank eventually gets a stop answer.", "quantifier": "every number of ranks, batch size, interleaving of requests", "why_tests_cant": "interleavings are unbounded", "anchors": ["source/WavelengthParallelisation.hpp:33-155"]}
{"id": "C28", "title": "No rank can receive a batch before the dispenser is reset", "statement": "Expected: no rank's request is served before the root rank has reset the dispenser for this formal solution, so no wavelength is counted twice. Violated in the first formal solution: a remote request can be served between the barrier and the reset and the first batch is then computed by two ranks and summed twice. (In later solutions an early request is only told to stop, and every wavelength is still computed exactly once.)", "quantifier": "every interleaving of root and remote ranks around the barrier", "why_tests_cant": "timing dependent", "anchors": ["source/WavelengthParallelisation.hpp:33-155", "source/main.cpp:999-1016", "source/main_3d.cpp:830-850"]}
{"id": "C29", "title": "Static wavelength striding partitions the wavelengths", "statement": "Without load balancing (or serially) the batches taken by the ranks are disjoint and cover [0, la_max).", "quantifier": "every rank count, batch size, wavelength count", "why_tests_cant": "all parameters", "anchors": ["source/WavelengthParallelisation.hpp:54-75,128-155"]}
{"id": "C30", "title": "Splitting a ray anywhere does not change the formal solution", "statement": "Marching a sequence of cells equals marching the far part, then the near part and merging the two intervals; merging is associative, so any cascade split of a ray yields the same intensity and optical depth.", "quantifier": "every list of (source, optical depth) samples and every split", "why_tests_cant": "unbounded lists and splits", "anchors": ["source/RayMarching.hpp:293-305,452-609"]}
{"id": "C31", "title": "The formal solution stays between the extremes of its inputs", "statement": "With non-negative optical depths the emerging intensity is a convex combination of the incoming intensity and the source functions: it is bounded by their min and max, non-negative when they are, and equals S when all sources and the incoming intensity equal S.", "quantifier": "every list of samples", "why_tests_cant": "unbounded", "anchors": ["source/RayMarching.hpp:452-609"]}
{"id": "C32", "title": "Clipping a ray to the grid keeps exactly the part inside", "statement": "A ray segment clipped to a box keeps exactly the parameters t for which the point is in the (closed) box, and is rejected iff no point is inside. Violated only for an axis-parallel ray with a negative-zero direction component starting exactly on a face: it is rejected although its points are in the closed box.", "quantifier": "every ray origin, direction with non-zero components, interval and box", "why_tests_cant": "continuum of inputs", "anchors": ["source/Types.hpp:186-314 (RaySegment::intersects, clip)"]}
{"id": "C33", "title": "Table lookup and interpolation are exact at nodes and bounded", "statement": "The binary search returns the number of grid entries <= the sought value (first index greater), terminates, and linear interpolation clamps outside, reproduces nodes, and lies between the neighbouring values.", "quantifier": "every sorted grid and query", "why_tests_cant": "all grids and queries; off-by-one in bisection", "anchors": ["source/Utils.hpp:92-139"]}
{"id": "C34", "title": "Mip values are means of the underlying cells and a tile is coarsened only if all its voxels agree", "statement": "Level-L emissivity/opacity of a voxel equals the arithmetic mean of its 4^L base cells (2D; the 3D mips are C94), for any order of the parallel iterations; the level of a tile increases from L-1 to L iff every voxel/wavelength entry of the tile satisfied the criterion; the criterion is: optically thin, or relative spread of opacity and of emissivity within the thresholds.", "quantifier": "every field, tile and level", "why_tests_cant": "all fields", "anchors": ["source/Mipmaps.cpp:152-374", "source/CoreAndVoigtEmisOpac.cpp:151-330"]}
{"id": "C35", "title": "Merged wavelength grid is sorted, drawn from the inputs, with correct integration weights", "statement": "The combined grid is strictly ascending and does not depend on how the sort orders equal wavelengths, each point comes from a transition's own grid and is kept iff that transition governs there (lines before continua, nearest line centre); the quadrature bins are non-negative and sum to the total span; the [blue,red) index range of each transition contains exactly the grid points inside its wavelength range.", "quantifier": "every set of transitions with sorted grids", "why_tests_cant": "all sets of overlapping transitions", "anchors": ["source/Populations.hpp:464-630"]}
{"id": "C36", "title": "Active transition lists are exact", "statement": "For every wavelength the active line/continuum list contains exactly the transitions covering it, in increasing order; computing emissivity and opacity with the list equals scanning all transitions (up to 65536 transitions: the list stores 16-bit numbers); static + dynamic contributions equal the full computation.", "quantifier": "every atom set (< 65536 lines) and wavelength", "why_tests_cant": "all sets", "anchors": ["source/Populations.hpp:688-725", "source/EmisOpac.hpp:283-405"]}
{"id": "C37", "title": "The wavelength-batch line table lists every active line once or refuses", "statement": "The per-batch line table is the duplicate-free union of the lines active at the batch's wavelengths, padded with -1; it throws iff that union has more than the configured maximum of lines.", "quantifier": "every batch and active set", "why_tests_cant": "all combinations", "anchors": ["source/CoreAndVoigtEmisOpac.cpp:58-98"]}
{"id": "C38", "title": "Rate matrix fix-up makes every column sum to zero", "statement": "After the fix-up each diagonal element is minus the sum of the other entries of its column; off-diagonal entries are unchanged; the fix-up is idempotent.", "quantifier": "every matrix of every size", "why_tests_cant": "all sizes and values", "anchors": ["source/GammaMatrix.hpp:43-60", "source/Populations.cpp:456-470"]}
{"id": "C39", "title": "The statistical-equilibrium step returns the equilibrium populations of the rate matrix", "statement": "For non-negative rates such that every level can decay, directly or through others, to the level chosen for elimination, the solve succeeds and returns non-negative populations that satisfy the rate equation of every level (including the eliminated one), sum to abundance times hydrogen density, are the only such populations and do not depend on the eliminated level. Violated outside that case: elimination without pivoting divides by zero when a level has no way out and is eliminated before the conserved one, although the equilibrium is unique.", "quantifier": "every rate matrix of every size, every eliminated level", "why_tests_cant": "all matrices", "anchors": ["source/Populations.cpp:378-640"]}
{"id": "C40", "title": "LTE populations conserve the element and are what the solver returns with collisions only", "statement": "LTE populations are positive, follow the Saha-Boltzmann ratios and sum to the element density (to within one smallest representable number per level where that floor acts); any set of thermal collisions is in detailed balance with them, and the statistical-equilibrium step with only such collisions returns exactly them; neutral plus ionised hydrogen is the total.", "quantifier": "every level structure, temperature, density and set of collisional processes (real numbers)", "why_tests_cant": "continuum of inputs", "anchors": ["source/Populations.hpp:878-926", "source/Collisions.hpp:27-215", "source/LteHPops.hpp:60-78"]}
{"id": "C41", "title": "The Newton charge update conserves hydrogen, charge and pressure and is a Newton step of the rate equations", "statement": "When no component is clamped, for every schedule of the parallel loops: the updated hydrogen populations sum to abundance times nH and their charge equals the updated electron density; with pressure conservation the stored densities satisfy total_abundance*nH + ne = P/kT. The step solves the rate equations linearised in populations and electron density; a vanishing step means the state is an equilibrium, neutral and conserving; such a state is left unchanged. Probing the collisional rates at a perturbed electron density leaves electron density and LTE populations restored.", "quantifier": "every rate matrix, state, size and schedule (real numbers)", "why_tests_cant": "continuum of inputs and all schedules", "anchors": ["source/ChargeConservation.cpp:446-963", "source/Collisions.hpp:218-265"]}
{"id": "C42", "title": "Clamped Newton updates keep densities non-negative and deterministic", "statement": "Expected: when an update would drive a population or the electron density negative the clamped step keeps it non-negative, independent of scheduling. Holds for the electron density exactly when the update is at most 1e4 times the density. Violated beyond that, and for populations: their step is scaled by the electron density, so they can become negative, by more than the unclamped step, and the result depends on whether the electron density was updated first.", "quantifier": "every state, update and schedule", "why_tests_cant": "all magnitudes and schedules", "anchors": ["source/ChargeConservation.cpp:885-929"]}
{"id": "C43", "title": "The simple pressure update restores the gas pressure", "statement": "Expected: the update makes total_abundance*nH + ne equal P/kT with non-negative densities. Holds (with all populations scaled by the same factor, neutrality preserved) for neutral states. In general the pressure is restored iff the non-hydrogen electrons do not exceed P/kT; otherwise nH is set to 1e10 and the pressure exceeded. Violated: the electron density goes negative exactly when total_abundance*nH*(n_p - ne) > n_p*P/kT.", "quantifier": "every state (real numbers)", "why_tests_cant": "continuum of inputs", "anchors": ["source/PressureConservation.hpp:9-103"]}
{"id": "C44", "title": "After a pressure-conserving Newton update hydrogen populations sum to the hydrogen density", "statement": "Expected: the sum of the hydrogen populations equals the stored hydrogen density after the update. Violated whenever the density changes: hydrogen, which already carries the new total, is rescaled once more, so its sum is nH_new^2/nH_old and its charge ne*nH_new/nH_old. Other atoms are rescaled correctly.", "quantifier": "every state whose density changes, every schedule", "why_tests_cant": "all states", "anchors": ["source/ChargeConservation.cpp:930-950"]}
{"id": "C45", "title": "A change above tolerance is never missed by the convergence test", "statement": "Expected: the change reported after each pass is the largest relative change of any tracked population, whatever the thread schedule, and a run whose populations became NaN is not reported as converged. Violated for NaN: a population that becomes NaN counts as no change, so an all-NaN solution is reported as converged; the rest holds.", "quantifier": "every set of populations (including NaN and infinities), atom count and reduction tree", "why_tests_cant": "schedule and value space are unbounded", "anchors": ["source/Populations.cpp:592-646"]}
{"id": "C46", "title": "The main loop stops, and for the right reason", "statement": "Whatever changes are reported, the non-LTE loop ends after at most max_iter passes (one more if the last was accelerated); it ends only when the limit is reached or the last change is not above pop_tol after initial_lambda_iterations + 1 passes, never directly after an accelerated step; acceleration happens only when five stored changes are at or below its threshold and is followed by a plain pass.", "quantifier": "every configuration and sequence of reported changes", "why_tests_cant": "histories are unbounded", "anchors": ["source/main.cpp:957-1060", "source/NgAcceleration.cpp:13-34"]}
{"id": "C47", "title": "Restarting from a snapshot reproduces the uninterrupted run", "statement": "Expected: a run restarted from a snapshot goes through the same states and ends with the same populations, densities and iteration number as the uninterrupted run. Holds without Ng acceleration (for a tolerance below 1). Violated with Ng acceleration: the five stored iterates and changes are not saved, so the restarted run accelerates at other passes.", "quantifier": "every crash point, snapshot frequency, configuration and deterministic pass", "why_tests_cant": "crash points and histories are unbounded", "anchors": ["source/main.cpp:258-335, 938-1060", "source/NgAcceleration.hpp"]}
{"id": "C48", "title": "All MPI ranks solve with the same populations and densities", "statement": "Expected: at the start of every formal solution all ranks hold the same populations, electron and hydrogen densities. Violated at FS 0 and FS 1 of a fresh run with charge conservation (the LTE n_e iteration updates rank 0 only and n_e is not broadcast before the end of pass 1) and at FS 0 with special initial populations. Holds on restarts, without charge conservation, and from FS 2 on.", "quantifier": "every run configuration, number of ranks and update functions", "why_tests_cant": "depends on rank-local state and history", "anchors": ["source/main.cpp:922-1060", "source/Populations.cpp:650-662", "source/ChargeConservation.cpp:966-978"]}
{"id": "C49", "title": "Collisional rates of an atom go to that atom's rate matrix", "statement": "Expected: the collisional rates of atom a are accumulated in the matrix used for a's statistical equilibrium, and atoms treated in detail (no rate matrix) keep their populations. Violated: exactly when a Detailed atom precedes a, a's collisions go to an earlier atom's matrix; and every atom, Detailed or not, is solved for.", "quantifier": "every list of atom treatments", "why_tests_cant": "depends on the order and treatment of atoms", "anchors": ["source/Collisions.cpp:4-48", "source/Populations.hpp:856-876", "source/main.cpp:108-118", "source/Populations.cpp:378-400"]}
{"id": "C50", "title": "Preconditioning does not change the net rate", "statement": "With the same-transition preconditioning the net rate between two levels evaluated at the current populations equals the unpreconditioned net rate; with psi*=0 the classical radiative rates are recovered.", "quantifier": "every intensity, operator, population and rate coefficient", "why_tests_cant": "continuum of inputs", "anchors": ["source/GammaMatrix.hpp:22-41", "source/DynamicFormalSolution.cpp:100-135"]}
{"id": "C51", "title": "Thermal source functions", "statement": "With LTE populations the emissivity over opacity of a bound-free continuum is the Planck function, for every cross-section; that of a line whose coefficients obey the Einstein relations between Boltzmann-distributed levels is A/B/(exp(hnu/kT)-1), whatever the profile, damping and velocity.", "quantifier": "every cross-section, wavelength, temperature, line and profile", "why_tests_cant": "continuum of inputs", "anchors": ["source/EmisOpac.hpp:186-320"]}
{"id": "C52", "title": "Configuration: mip levels per cascade are completely defined", "statement": "Expected: after parsing there is exactly one mip level per cascade, the i-th of the sequence or its last element repeated, and the block map covers the largest. Violated exactly by an empty sequence, which reads before the start of the array.", "quantifier": "every max_cascade and every mip_levels entry", "why_tests_cant": "all sequences", "anchors": ["source/DexrtConfig.hpp:252-285", "source/main.cpp:88-91"]}
{"id": "C53", "title": "Configuration: outputs that a mode cannot produce are never written, those requested are", "statement": "Expected: no variable the mode cannot provide is written, requested variables are, and requested cascades exist. Holds with an output section for non-negative cascade numbers. Violated without an output section (GivenFs mode then computes LTE populations of a missing atmosphere) and for negative cascade numbers, which are accepted and index the buffers.", "quantifier": "every configuration file", "why_tests_cant": "all combinations of keys", "anchors": ["source/DexrtConfig.hpp:175-250, 352-354", "source/main.cpp:774-823"]}
{"id": "C54", "title": "Flux conserving boundary resampling is an overlap-weighted mean", "statement": "For an output bin inside the input range the resampled value is the overlap-weighted mean of the input bins, so it lies between their extremes, constants are reproduced and, when the outer edges match, the integrated flux is preserved; bins that do not touch the input range give zero; bins that reach outside it use the end values over the uncovered part. Expected also: a straddling bin is the mean of the part that is covered, and one wavelength is enough. Violated: the end values weigh in (example); and with a single input or output wavelength the edges are computed from outside the table.", "quantifier": "every pair of ascending wavelength grids and input spectrum", "why_tests_cant": "all grids", "anchors": ["source/PromweaverBoundary.cpp:36-112"]}
{"id": "C55", "title": "Line-sweep storage slots of different lines never overlap", "statement": "The storage offsets are the running sum of samples per line: slot ranges of distinct lines are disjoint, consecutive and end at the total; every flat sample index decodes to exactly the line set, line and step it was laid out for; every line stored has at least one sample, and with grid steps of two or more (the swept cascades) all samples lie inside the box and another one would be outside. Violated for a unit grid step: a kept line can have its only sample outside the box.", "quantifier": "every list of line sets; every direction, box and starting point", "why_tests_cant": "all lists", "anchors": ["source/LineSweepSetup.cpp:30-150", "source/LineSweepSetup.hpp:67-85", "source/LineSweeping.hpp"]}
{"id": "C56", "title": "Line profiles integrate to one after normalisation", "statement": "Multiplying a line profile by its stored normalisation factor makes its angle and wavelength quadrature equal one, for every line and cell whose raw quadrature is non-zero; otherwise the factor is one. With the weights used for the rate matrix, an isotropic radiation field that is constant over the line then gives exactly the Einstein rates Bij J upwards and Aji + Bji J downwards.", "quantifier": "every profile, quadrature, velocity field and cell", "why_tests_cant": "continuum of inputs", "anchors": ["source/ProfileNormalisation.cpp:46-140", "source/GammaMatrix.hpp:22-41", "source/DynamicFormalSolution.cpp:75-135"]}
{"id": "C57", "title": "Boundary illumination angle is the true incidence cosine", "statement": "For a unit direction the returned value is -1 when the line misses the solar sphere and otherwise the (non-negative, at most one for outside points) cosine of the angle at the hit point, which lies on the sphere.", "quantifier": "every position and unit direction", "why_tests_cant": "continuum of inputs", "anchors": ["source/PromweaverBoundary.hpp:60-105"]}
{"id": "C58", "title": "Velocity-interpolated emissivity is a clamped linear interpolation", "statement": "Sampling the precomputed velocity table at any velocity reads only existing bins, equals the stored value at bin velocities, and otherwise lies between the two neighbouring bins.", "quantifier": "every velocity, table and bin spacing", "why_tests_cant": "continuum of inputs", "anchors": ["source/DirectionalEmisOpacInterp.hpp:128-160"]}
{"id": "C59", "title": "Where snapshots are written", "statement": "The snapshot path always differs from the output path; an output stem.nc has the snapshot stem_snapshot.nc (so different outputs ending in .nc have different snapshots) and a path without .nc gets _snapshot.nc appended. Expected also: different outputs never share a snapshot, and the snapshot lies in the directory of the output. Violated: outputs run and run.nc share one snapshot; the last .nc is replaced wherever it is, so with output runs.nc/out the snapshot goes to the directory runs_snapshot.nc.", "quantifier": "every output path string", "why_tests_cant": "all strings", "anchors": ["source/main.cpp:300-320", "source/main_3d.cpp:571-587"]}
{"id": "C60", "title": "3D cascades are stored in buffers big enough for them, and each output buffer holds its cascade", "statement": "Expected: every 3D cascade is written to a buffer with at least as many entries as the cascade, and the buffer the user asks to output as cascade n holds cascade n. Violated: the buffers are allocated one per cascade but addressed in ping-pong fashion, so e.g. on an 8x8x8 grid with 5 cascades above cascade 0 the 12288 entries of cascade 5 go to a buffer of 3072, and buffers 2, 3, ... are never written.", "quantifier": "every grid, cascade count and march order", "why_tests_cant": "the overflow needs particular grid and cascade counts; the never-written buffers are a statement about all executions", "anchors": ["source/CascadeState3d.cpp", "source/CascadeState.hpp:26-50", "source/main_3d.cpp:518-522"]}
{"id": "C61", "title": "The J image written to the output file has every cell in its place", "statement": "Expected: the [z, x] image of J written at the end holds at each cell the J computed for that cell, whether the last formal solution was sparse or dense. Violated: when a sparse run ends with the final dense formal solution and every tile is active, the dense J is mistaken for a sparse one (only the array length is compared) and its cells are permuted.", "quantifier": "every grid, configuration and J field", "why_tests_cant": "depends on the relation between the number of active tiles and the grid", "anchors": ["source/main.cpp:40-64, 743-790, 1060-1089"]}
{"id": "C62", "title": "The local-operator weight is the true response of the intensity to the last voxel", "statement": "Raising the emissivity of the last voxel a ray crosses by d raises the emerging intensity by exactly d times the weight handed to the population solver; the weight is never negative and never exceeds the path length through the voxel.", "quantifier": "every ray, every sequence of voxels with any emissivity, opacity and length (real numbers)", "why_tests_cant": "continuum of inputs and unbounded number of segments", "anchors": ["source/RayMarching.hpp:430-660"]}
{"id": "C63", "title": "Every wavelength of a batch uses the LTE populations of the current state", "statement": "Expected: the continuum emissivities and rates of every wavelength in a formal-solution batch are computed with LTE populations evaluated for the current atmosphere. Violated: the LTE populations are only computed at the first wavelength of the batch and only if that wavelength has an active continuum; otherwise later wavelengths of the batch read whatever the freshly allocated scratch array contains.", "quantifier": "every wavelength grid, batch, model atom and atmosphere", "why_tests_cant": "depends on where batches start relative to all continuum ranges; the values read are uninitialised", "anchors": ["source/Mipmaps.cpp:66-105", "source/EmisOpac.hpp:328-360", "source/DynamicFormalSolution.cpp:408-425"]}
{"id": "C64", "title": "Every transition keeps at least one wavelength in the merged grid", "statement": "Expected: each transition of the model atoms is sampled at one wavelength or more of the merged grid, so that its rates are computed. Holds for lines whose centre is one of their samples and is not shared with another line. Violated for continua: a continuum whose samples all lie inside a line's range, between two of the line's samples, is left with no wavelength.", "quantifier": "every set of model atoms and every outcome of the sort", "why_tests_cant": "all wavelength grids", "anchors": ["source/Populations.hpp:458-634"]}
{"id": "C65", "title": "The core-and-Voigt line data reproduce the directly evaluated line", "statement": "Emissivity and opacity evaluated during ray marching from the stored per-cell line data equal those of the direct evaluation for the same populations, broadening and velocity, at every wavelength and velocity.", "quantifier": "every line, population, broadening, wavelength, velocity and profile function (real numbers)", "why_tests_cant": "continuum of inputs; the two code paths rescale by different powers of wavelength", "anchors": ["source/CoreAndVoigtEmisOpac.cpp:19-147", "source/CoreAndVoigtEmisOpac.hpp:36-80", "source/EmisOpac.hpp:186-238"]}
{"id": "C66", "title": "Zero-radiation initial populations use the solver's own spontaneous rates", "statement": "Expected: the populations started from zero radiation balance collisions against the spontaneous rates the main solver would use with zero intensity. Violated: the recombination coefficient is 2 exp(hc/(lambda k T)) times the solver's for every continuum, temperature, density and wavelength (the spin factor 1/2 and the stimulated-emission exponential are missing).", "quantifier": "every level structure, continuum, wavelength, temperature and density", "why_tests_cant": "continuum of inputs", "anchors": ["source/InitialPops.cpp:9-66", "source/EmisOpac.hpp:186-238"]}
{"id": "C67", "title": "The MAGMA build conserves pressure", "statement": "Expected: the pressure-conserving Newton step of the MAGMA build drives the gas pressure to its prescribed value. Violated: the pressure defect is computed but never stored, so every step leaves total_abundance*sum(n_H) + ne exactly where it was.", "quantifier": "every state", "why_tests_cant": "all states; optional build", "anchors": ["source/ChargeConservation.cpp:6-445"]}
{"id": "C68", "title": "Iterative refinement refines every unknown of the Newton system", "statement": "Expected: each refinement pass adds the correction to every unknown. An exact solution is left alone. Violated: the correction of the electron density is never added (the loop covers the levels only).", "quantifier": "every matrix, right-hand side and starting solution", "why_tests_cant": "rounding-error-sized effects are invisible to tests with tolerances", "anchors": ["source/ChargeConservation.cpp:815-860"]}
{"id": "C69", "title": "Ng acceleration extrapolates towards the fixed point", "statement": "Expected: the accelerated populations of a level minimise the weighted residual over combinations of the stored iterates, are a fixed point when the residual can be annihilated, stay positive and conserve the element's total. The first two hold. Violated: a level unchanged over five iterates, or any level with fewer than three cells, gives a zero pivot (NaN); positive populations with changes below 5% can become negative; the total over levels is not conserved.", "quantifier": "every five iterates, number of cells and affine iteration", "why_tests_cant": "continuum of inputs", "anchors": ["source/NgAcceleration.cpp:36-104"]}
{"id": "C70", "title": "A crash while saving a snapshot leaves a usable snapshot", "statement": "Expected: if the process dies while a snapshot is being written, a restart uses the previous snapshot or refuses. Violated: the previous snapshot is truncated first, so both are lost; and a file cut after the populations is accepted with the input electron density. A completed save always round-trips.", "quantifier": "every crash point, previous file and configuration", "why_tests_cant": "crash points", "anchors": ["source/main.cpp:258-335"]}
{"id": "C71", "title": "Boundary table sampling interpolates in incidence cosine and clamps", "statement": "For every position and unit direction the boundary lookup returns a value (no out-of-range read): zero when the ray misses the Sun, the end values outside the tabulated range of cosines, and the straight line between the two neighbouring entries otherwise; so it never leaves the range of the table.", "quantifier": "every table, position and direction", "why_tests_cant": "continuum of inputs", "anchors": ["source/PromweaverBoundary.hpp:93-125", "source/PromweaverBoundary.cpp:19-31"]}
{"id": "C72", "title": "Extending line-sweep samples composes the preceding segments", "statement": "After extension over n steps, the source and transmission stored at sample t are those of the physical composition of the last min(n, t+1) segments ending there: the transmission is their product, the source the sum of each attenuated by the later ones; physical inputs (0<=T<=1, 0<=S<=B(1-T)) give physical outputs.", "quantifier": "every line, sample, and number of steps", "why_tests_cant": "all lengths", "anchors": ["source/LineSweeping.hpp:302-333"]}
{"id": "C73", "title": "Lines of a sweep direction are evenly spaced and complete", "statement": "For every direction not parallel to an axis, the search for lines ends, consecutive lines are exactly one grid step apart along the primary axis, all start on the same side, each has at least half a step inside the box and no such line on the spacing is missed.", "quantifier": "every box, direction and grid step", "why_tests_cant": "continuum of inputs; unbounded loops", "anchors": ["source/LineSweepSetup.cpp:30-108"]}
{"id": "C74", "title": "Looking up a line-sweep result interpolates between the neighbouring lines", "statement": "Expected: a point maps to (line, sample) coordinates that invert the layout, the interpolated value is exact at samples and always a convex mean of the stored samples. Violated: the line coordinate is truncated towards zero instead of floored, so a probe before the first line gets a negative weight and can receive negative intensity.", "quantifier": "every box, direction, position, line set and stored values", "why_tests_cant": "continuum of inputs", "anchors": ["source/LineSweeping.hpp:352-555"]}
{"id": "C75", "title": "The two ways of accumulating the rate matrix agree", "statement": "Leaving the constant hc/4pi out of the coefficients and out of the wavelength weight (the variant in use, 2D and 3D) gives for every transition, wavelength and ray exactly the contribution of the variant with the constant, including the approximate-operator terms.", "quantifier": "every line and continuum, populations, intensity, approximate operator and quadrature", "why_tests_cant": "continuum of inputs", "anchors": ["source/DynamicFormalSolution.cpp:14-392", "source/DynamicFormalSolution3d.cpp:121-300", "source/EmisOpac.hpp:186-238"]}
{"id": "C76", "title": "Grid traversal terminates and yields ordered, non-overlapping segments inside the ray", "statement": "Marching any 2D or 3D ray through a block map whose tiles are empty or at any refinement level stops after finitely many steps; the sampled segments come in order, do not overlap, have no negative length, end before the end of the clipped ray and together are no longer than it; a ray that misses the grid yields nothing. (The start of the clipped ray must not lie within 2e-6 before a cell face, see C79.)", "quantifier": "every grid, tile refinement, ray origin, direction and extent (exact arithmetic)", "why_tests_cant": "The loop bound depends on the ray; termination and order must hold for all rays including those through edges, corners and along faces.", "anchors": ["source/BlockMap.hpp: MultiLevelDDA", "source/Types.hpp: RaySegment::clip, update_origin", "source/RayMarching.hpp: multi_level_dda_raymarch_2d"]}
{"id": "C77", "title": "Each sample is the cell the ray is in", "statement": "Expected: for each sampled segment, the sampled cell is the one, at the refinement level of the tile, that contains the ray throughout the segment. Holds for rays meeting no edge or corner of the cell grid. Violated for rays through corners: a cell touched in one point only is sampled with a length of about 2e-6.", "quantifier": "every grid, refinement and ray", "why_tests_cant": "Needs a geometric invariant along rays of any length over any refinement pattern.", "anchors": ["source/BlockMap.hpp: MultiLevelDDA", "source/Types.hpp: RaySegment::clip, update_origin", "source/RayMarching.hpp: multi_level_dda_raymarch_2d"]}
{"id": "C78", "title": "Every non-empty part of a ray is sampled", "statement": "Expected: every point of the clipped ray in a non-empty tile belongs to a sampled segment. Holds exactly where the level is uniform (segments tile the ray), and elsewhere except within 11/1000 of a cell after each change of level. Exactness violated: the traversal restarts 1/1000 (or 11/1000 on leaving refined tiles) ahead after a change of level.", "quantifier": "every grid, refinement and generic ray", "why_tests_cant": "Gaps appear only at particular combinations of levels; coverage is a statement on all points of all rays.", "anchors": ["source/BlockMap.hpp: MultiLevelDDA", "source/Types.hpp: RaySegment::clip, update_origin", "source/RayMarching.hpp: multi_level_dda_raymarch_2d"]}
{"id": "C79", "title": "Traversal is correct wherever a ray starts", "statement": "Expected: C76 and C77 for a ray starting at any point of the grid. Violated: a ray starting in an empty tile within 2e-6 of leaving it keeps the lower corner of the next tile as its cell, so all its samples come from cells it never visits, and the first segments are out of order.", "quantifier": "every ray start", "why_tests_cant": "Measure-small sets of starts are not hit by tests.", "anchors": ["source/BlockMap.hpp: MultiLevelDDA", "source/Types.hpp: RaySegment::clip, update_origin", "source/RayMarching.hpp: multi_level_dda_raymarch_2d"]}
{"id": "C80", "title": "2D ray tool: the rays cover the domain", "statement": "With rotate_aabb, for any view direction the ray set is a line of starting points spaced one cell apart, perpendicular to the view, entirely on the observer's side of the domain, and every point of the domain lies within half a cell of one of the rays, in front of its start. The traced direction is the unit vector opposite to the requested (mux, muz).", "quantifier": "all grid sizes, all non-zero view directions, all points of the domain", "why_tests_cant": "view angle and grid size are continuous/unbounded; a test can only look at a few angles", "anchors": ["source/dexrt_ray.cpp: compute_ray_set, compute_ray_intensity"]}
{"id": "C81", "title": "2D ray tool: rays reach the far side of the domain", "statement": "Expected: the traced part of the rays passes within half a cell of every point of the domain. Violated: rays are cut at max(num_x, num_z) from a start plane one cell outside the domain, so whenever the domain's extent along the view plus one exceeds that length a corner of the domain is missed by the whole deficit; on a square domain this happens for every view direction, and seen from above a domain at least as tall as wide never has its bottom row sampled. It holds exactly when extent + 1 <= max(num_x, num_z), and for the unrotated vertical view.", "quantifier": "all grid sizes, all view directions", "why_tests_cant": "the omission is at the optically deep end and changes no shape or count", "anchors": ["source/dexrt_ray.cpp: compute_ray_set, compute_ray_intensity"]}
{"id": "C82", "title": "Ray tools: the reported intensity solves the transfer equation", "statement": "The intensity reported for a ray is the unique solution of dI/ds = eta - chi I through the sampled voxels with the boundary intensity at the far end (chi floored by 1e-20), equal to the back-to-front formal solution; the reported optical depth is the sum over the voxels; rays that sample nothing show the boundary intensity. Depth output never writes out of bounds, column r holds the samples of ray r near to far with cumulative optical depth, contribution and source function, and is NaN after the ray's num_steps.", "quantifier": "all traversals, all emissivities, opacities and step lengths, all sets of rays", "why_tests_cant": "needs all lengths of ray and all coefficient values", "anchors": ["source/dexrt_ray.cpp: compute_ray_set, compute_ray_intensity", "source/dexrt_ray_3d.cpp: compute_ray_intensity"]}
{"id": "C83", "title": "2D ray tool: line-of-sight velocity matches the reported direction", "statement": "Expected: the velocity used for Doppler shifts is the projection of the plasma velocity on the unit direction towards the observer that is written to the output. Violated: (1) a requested direction with mux^2+muz^2 = N > 1 is divided by N instead of sqrt N, so velocities are too small by 1/sqrt N; (2) for mux^2+muz^2 < 1 the y component enters with the opposite sign to the reported mu. Holds when mux^2+muz^2 = 1, or < 1 with no y velocity.", "quantifier": "all directions and velocities", "why_tests_cant": "sign and scale errors vanish for the symmetric cases tests use", "anchors": ["source/dexrt_ray.cpp: compute_ray_set, compute_ray_intensity", "source/dexrt_ray.cpp: setup_output"]}
{"id": "C84", "title": "Ray tools: background intensity is the boundary in the ray's direction", "statement": "Expected: for a downward-looking ray the background is the boundary radiation along the ray's line (upward and horizontal views get none). Holds in the 3D tool and in the 2D tool for in-plane directions (the boundary lookup does not depend on the sign of the direction). Violated in the 2D tool for inclined rays (mux^2+muz^2 < 1): the boundary is looked up for the direction projected on the x-z plane.", "quantifier": "all boundary tables, positions, directions", "why_tests_cant": "needs every direction", "anchors": ["source/dexrt_ray.cpp: compute_ray_set, compute_ray_intensity", "source/dexrt_ray_3d.cpp: compute_ray_intensity", "source/PromweaverBoundary.hpp: vector_chromo_ray_mu, sample_boundary"]}
{"id": "C85", "title": "3D ray tool: image plane", "statement": "Pixel (y, x) starts at the centre of its cell of a square tiling of the image plane, and when image_size times supersample is integral every point of the image is within half a pixel of a ray; the velocity used is the component towards the observer. Expected: rays reach the domain from any camera position. Violated: rays are cut after 8192 cells.", "quantifier": "all image sizes, supersampling factors, camera positions", "why_tests_cant": "unbounded camera positions", "anchors": ["source/dexrt_ray_3d.cpp: compute_ray_set, compute_ray_intensity"]}
{"id": "C86", "title": "Packed atomic tables give back each model atom", "statement": "Packing any non-empty list of model atoms into the flat tables and taking one species out again gives that species' mass, nuclear charge, treatment, levels, lines (each with its own broadening terms), continua and collisions (each with its own temperature and rate table), in order. Expected: a malformed model is refused. Violated: a collision with fewer rates than temperatures is read past its end.", "quantifier": "all lists of model atoms, all numbers of levels, lines, broadening terms, continua, collisions and temperatures", "why_tests_cant": "needs every combination of table lengths", "anchors": ["source/Populations.hpp: to_atomic_data, extract_atom", "source/CrtafParser.hpp: parse_crtaf_model"]}
{"id": "C87", "title": "Hydrogen first, and the species solved for", "statement": "When hydrogen is the lightest species given, it is recognised as present and its levels are the first rows of the population array, whatever the order of the configuration. The species for which a rate matrix is built are exactly those with Golding or Active treatment, in increasing order, each paired with its own data.", "quantifier": "all lists of atoms, all orders, all treatments", "why_tests_cant": "every permutation and every sort result", "anchors": ["source/Populations.hpp: to_atomic_data, extract_atoms_with_gamma_and_mapping", "source/Types.hpp: has_gamma"]}
{"id": "C88", "title": "Model atoms: transitions refer to the levels the file names", "statement": "In a parsed model atom the levels are the file's levels in non-decreasing energy, and each line, continuum and collision joins the two levels the file names for it. A line is refused exactly for an unknown type, an unknown level, an unknown broadening, two natural broadenings or an unknown grid type. Expected: the first level named is the upper one. Violated: a line with its levels in the wrong order is accepted.", "quantifier": "all model files with distinct level keys, all sort results", "why_tests_cant": "every ordering of levels and transitions", "anchors": ["source/CrtafParser.hpp: parse_crtaf_model"]}
{"id": "C89", "title": "Model atoms: broadening and wavelength grid of a line", "statement": "A parsed line has the file's natural width and its scaled broadening terms in file order. A linear grid of n >= 2 points has n equally spaced, increasing wavelengths symmetric about the line centre from -half_width to +half_width, and contains the centre exactly when n is odd; a tabulated grid is the line centre plus each offset. Expected: every accepted line has a natural width and numeric wavelengths. Violated: without a natural entry the width is uninitialised memory; with n = 1 the wavelength is NaN.", "quantifier": "all lines, half widths, numbers of points, offsets", "why_tests_cant": "all n and all real half widths", "anchors": ["source/CrtafParser.hpp: parse_crtaf_model", "source/Types.hpp: AtomicLine"]}
{"id": "C90", "title": "Tabulated velocity range contains the rays' line-of-sight velocities", "statement": "With velocity-interpolated opacities, expected: for each cell and direction subset the tabulated range contains the line-of-sight velocity of every ray of the subset, of every cascade and inclination. Holds whenever the velocity has no component along the ignorable axis, or its projection on the plane points along or against the subset's sector; the lower end always holds for vy <= 0 and the upper end for vy >= 0. Violated otherwise, in spite of the 2% margin (from cascade 4 on with the compiled quadrature): such rays are sampled at the end of the table.", "quantifier": "all velocities, subsets, cascades, rays of the subset, increasing inclination quadratures in [0,1]", "why_tests_cant": "continuum of velocities and directions; the failing ones are a thin wedge", "anchors": ["source/DirectionalEmisOpacInterp.cpp: compute_min_max_vel", "source/Utils.hpp: dir_to_angs, angs_to_dir", "source/RcUtilsModes.hpp: c0_flat_dir_angular_range, ray_dir, inverted_mu"]}
{"id": "C91", "title": "Looking up a probe's intensity in an arbitrary direction", "statement": "The intensity of a probe in a direction is the linear interpolation, in azimuth and periodic over the full turn, between the two of its rays that enclose the direction; in the direction of one of its rays it is that ray's stored value.", "quantifier": "all numbers of rays, all non-zero direction vectors, all stored values", "why_tests_cant": "continuum of directions including the wrap-around", "anchors": ["source/RcUtilsModes.hpp: probe_frac_dir_idx", "source/RadianceCascades.hpp: interp_probe_dir"]}
{"id": "C92", "title": "Voigt profile: complex division and line wings", "statement": "The complex type used by the Voigt evaluation divides correctly: for every divisor other than zero, (x / y) * y = x. Evaluated where |v| + a >= 15 the profile is positive for every damping a > 0 and every v, and differs from the Lorentz wing a / (sqrt(pi) (a^2 + v^2)) by at most 2 %. The profile is an even function of v everywhere.", "quantifier": "all complex x and y <> 0; all a > 0 and all real v with |v| + a >= 15", "why_tests_cant": "positivity and the asymptotic limit of the rational approximation are claims about an unbounded domain of real arguments", "anchors": ["source/Voigt.hpp: DexComplex, humlicek_wei24_voigt, VoigtProfile"]}
{"id": "C93", "title": "Tabulated Voigt lookup: in bounds, exact at nodes, bilinear, clamped", "statement": "For every table with at least two points per axis and an increasing range, a lookup at any (a, v) reads only inside the table; its value lies between the smallest and largest samples within one step of the point; at a table node it returns the stored value; every bilinear function is reproduced exactly inside the range and continued by its boundary value outside. For a real profile this needs the v axis to start at 0 or above: with a negative lower end stored values at negative v are never returned.", "quantifier": "all tables (sizes, ranges, samples) and all real arguments", "why_tests_cant": "bounds safety at the range ends and interpolation exactness range over all arguments and table shapes", "anchors": ["source/Voigt.hpp: VoigtProfile::operator(), compute_samples"]}
{"id": "C94", "title": "3D mip chain: level values are means of the covered cells; tile levels count passing voxels", "statement": "Expected: after the 3D mip construction, for every grid, set of active tiles, number of levels and execution order of the parallel iterations, every voxel of every level in an active tile holds the arithmetic mean of the base cells it covers (velocities, line coefficients, emissivity, opacity), no index outside the buffers is read, and a tile's recorded level is one plus the number of consecutive levels at which every voxel passes the variance criterion; uniform or optically thin blocks always pass. Holds for velocities, line coefficients, tile levels and the CoreAndVoigt criterion. Violated: emissivity and opacity sums of eight cells are multiplied by 0.25, so level l holds 2^l times the mean, and in given-source-function mode the criterion's moments are doubled so a uniform optically thick block is refused unless |ln(chi ds)| is within tolerance.", "quantifier": "every map, level count, array contents, schedule, optical depths and tolerances", "why_tests_cant": "must hold for all grids, all contents and all interleavings; the wrong factor is invisible when only level 0 is used", "anchors": ["source/Mipmaps3d.cpp: MultiResMipChain3d::compute_mips", "source/CoreAndVoigtEmisOpac.cpp: CoreAndVoigtData3d::compute_mip_n"]}
{"id": "C95", "title": "Neutral hydrogen density is current wherever it is used", "statement": "Expected: whenever collisional rates, line broadening or profile normalisation are computed, the neutral hydrogen density used is that of the populations and densities of that moment (ground-level hydrogen population if a hydrogen model is loaded, the LTE value otherwise). Proved for every LTE electron-density iteration, every formal solution pass, the final dense formal solution and LTE mode, in 2D and 3D. Violated: the ZeroRadiation initial populations are computed with whatever density was left there: zero without charge conservation, so collisions with neutral hydrogen have rate zero.", "quantifier": "all configurations, solvers, numbers of iterations, cells", "why_tests_cant": "needs the whole history of updates of two redundant fields, for any number of iterations", "anchors": ["source/main.cpp main", "source/main_3d.cpp main", "source/Populations.cpp compute_nh0", "source/InitialPops.cpp set_initial_pops_special", "source/Collisions.hpp"]}
{"id": "C96", "title": "Initial populations from a file are where the iteration starts", "statement": "Expected: with initial_pops_path set and no restart, the first formal solution uses the populations of the file. Proved without charge conservation and without ZeroRadiation atoms (and in 2D LTE mode always); a snapshot takes precedence. Violated: with charge conservation the LTE electron-density iteration replaces every population first; two files with the same hydrogen ground level give the same start, whatever else they hold (in 3D also in LTE mode).", "quantifier": "all configurations, files, solvers", "why_tests_cant": "must hold for every pair of files and every solver", "anchors": ["source/main.cpp main", "source/main_3d.cpp main", "source/main.cpp load_initial_pops"]}
{"id": "C97", "title": "Populations read from a file land on the cells they came from", "statement": "Expected: loading a file of populations gives every active cell the population of that cell in the file, or is refused. Proved for dense files (any map with the grid of the file, any schedule, 2D and 3D) and sparse files of the same map; wrong level counts and sizes are refused. Violated: cells active now but not in the run that wrote a dense output start with zero populations; a sparse file of a different map with the same number of active tiles is accepted and its populations are assigned to other cells; the ray tool does not compare sizes and reads past the end.", "quantifier": "all maps, files, schedules, grids", "why_tests_cant": "quantifies over pairs of block maps and parallel schedules", "anchors": ["source/main.cpp load_initial_pops", "source/main_3d.cpp load_initial_pops", "source/main.cpp save_results", "source/dexrt_ray.cpp load_dex_output"]}
{"id": "C98", "title": "3D core-and-Voigt considers every active line or stops with an exception", "statement": "Expected: at each wavelength every active line contributes along the ray, and more than four active lines stop the program with an exception. Proved for up to four lines. Violated: a fifth line is stored past the end of the fixed array before the count is tested, so the exception is never reached in a defined execution.", "quantifier": "all active sets", "why_tests_cant": "any number and order of lines", "anchors": ["source/CoreAndVoigtEmisOpac.cpp CoreAndVoigtData3d::fill", "source/DynamicFormalSolution3d.cpp", "source/UserConfig3d.hpp"]}
{"id": "C99", "title": "Ray directions of the 3D cascades cover the sphere evenly", "statement": "The directions returned for the rays of a 3D cascade (12*4^k rays) are unit vectors, pairwise different, each with exactly one opposite ray; each stands for its own patch of the sphere, the patches do not overlap and have equal area (so equal weights are right and an isotropic field carries no net flux), and the patches of the rays merged into a ray of the level below lie inside that ray's patch. Expected further: any ray count that passes the code's own assertion behaves so. Violated: 108 rays (12*3^2) pass the assertion but several rays share one direction.", "quantifier": "every cascade with 12*4^k rays (k<=13), every ray, every point of the sphere", "why_tests_cant": "continuous geometry of up to 8e8 directions; equality of areas is a statement about derivatives everywhere", "anchors": ["source/RcUtilsModes3d.hpp:471-570"]}
{"id": "C100", "title": "The ray marched for a probe is the right piece of the right line", "statement": "For every probe and direction, the segment marched consists of exactly the points between the cascade's start and end distances from the probe in that direction, walked towards the probe; directions are unit length, distinct and come in opposite pairs; the 3D propagation vector used for Doppler shifts and boundary lookups is a unit vector along the march. Expected further: no ray is axis-parallel, as the segment length is computed by dividing by the first component. Proved when the number of rays is a multiple of 4 (the shipped configurations); violated for 6 rays, where a ray parallel to an axis divides by zero.", "quantifier": "every probe position, cascade interval, number of directions, inclination", "why_tests_cant": "real-valued geometry over unbounded parameters", "anchors": ["source/RcUtilsModes.hpp:235-241,488-529", "source/RayMarching.hpp:440-444", "source/RcUtilsModes3d.hpp:573-585"]}
{"id": "C101", "title": "The boundary radiation enters the solution exactly once whatever the number of cascades", "statement": "Expected: for every max_cascade the configuration accepts, the radiation computed is that of the ray recursion in which the outermost rays, and only these, carry the boundary radiation. Proved for given emissivity/opacity with any max_cascade, and for the iterating modes with max_cascade >= 1. Violated: the iterating modes with max_cascade = 0 compute the radiation without the boundary (2D: the pass with the boundary is overwritten; 3D: there is none).", "quantifier": "every number of cascades, grid, ray, iteration order and boundary", "why_tests_cant": "any number of cascades and any schedule of the parallel loops", "anchors": ["source/DynamicFormalSolution.cpp:425-497", "source/StaticFormalSolution.cpp:43-85", "source/DynamicFormalSolution3d.cpp:783-848", "source/DexrtConfig.hpp:337"]}
{"id": "C102", "title": "Rank 0 writes the complete result of a distributed formal solution", "statement": "Expected: after a solution distributed over any number of ranks, the arrays rank 0 writes hold, for every wavelength, the value computed by whichever rank solved it. Proved for the mean intensity J, for every number of ranks and every assignment the work queue can produce. Violated for max_mip_block: rows solved by another rank keep the initial -1 or the value of an earlier iteration.", "quantifier": "every number of ranks, number of wavelengths, batch size and interleaving of requests", "why_tests_cant": "quantifies over MPI interleavings", "anchors": ["source/main.cpp:401-438,743-790,869,995-1017,1092-1117", "source/WavelengthParallelisation.hpp:193-221"]}
{"id": "C103", "title": "The ray tools evaluate the same emissivity and opacity as the solver", "statement": "At a wavelength of the model's grid the spectrum tool uses exactly the emissivity and opacity the solver uses. At any other wavelength each line is evaluated at that wavelength itself, each continuum with its cross-section linearly interpolated, taking the transitions whose range contains the last grid wavelength not above the requested one; below the first grid wavelength nothing contributes; no table is read out of bounds. Expected further: a continuum does not absorb beyond its ionisation edge. Violated: it keeps absorbing with its last cross-section up to the next grid wavelength (for ever, if there is none).", "quantifier": "every wavelength grid, set of lines and continua, populations and requested wavelength", "why_tests_cant": "the wavelength is an arbitrary number given in the configuration; the grid and transitions are arbitrary", "anchors": ["source/EmisOpac.hpp:294-511", "source/dexrt_ray.cpp:548", "source/dexrt_ray_3d.cpp:349"]}
{"id": "C104", "title": "The 3D formal solution computes the mean intensity of the ray recursion, whatever the schedule", "statement": "For every 3D grid, number of cascades, angular quadrature, probe list and execution order of the parallel loops, after the formal solution of a wavelength J of every computed cell has gained exactly the unweighted mean over all directions of the intensity given by the ray recursion (each ray continued by the average over its child rays of the trilinear interpolation between the surrounding probes of the cascade above; boundary radiation carried by the outermost rays only), and nothing else changes; isotropic radiation I gives J = I; the numbering of J is the flattened [z,y,x] order or, in sparse mode, the block-sparse one. Expected: this holds for any number of cascades. Violated: the cascades above 1 are stored in the buffers allocated for cascades 0 and 1, and when the grid is small for the number of cascades every execution writes out of bounds.", "quantifier": "every 3D grid size, number of cascades, quadrature, subset mode, active-cell map, iteration order", "why_tests_cant": "quantifies over all schedules of nested parallel loops and unbounded grid sizes", "anchors": ["source/DynamicFormalSolution3d.cpp:472-521,601-892", "source/StaticFormalSolution3d.cpp:60-105,330-460", "source/CascadeState3d.cpp:16-44", "source/CascadeState.hpp:26-48"]}
{"id": "C105", "title": "A 3D run writes to the file the J it computed", "statement": "For every 3D grid, active-cell map, number and order of wavelengths: after a sparse calculation the [wavelength,z,y,x] image of J in the file has in each cell of an active tile the J of that cell and zero elsewhere, and the sparse (ks) output is J entry by entry; after a dense calculation each cell of the image has its own J. Expected: this holds for all maps, modes and places of storage. Violated: (1) when every tile is active the J of a dense calculation is taken for a block-sparse one and the cells of the image are permuted; (2) with J kept on the device the conversion of a sparse J indexes out of bounds; (3) with given emissivity and opacity the computed J is never written: by default the file is written from an array that was never allocated.", "quantifier": "every 3D grid, active-cell map, wavelength count and order, storage option", "why_tests_cant": "unbounded grids and maps; the failure depends on a coincidence of sizes that small tests hit or miss", "anchors": ["source/main_3d.cpp:30-52,438-497,677-686,824-850,893-920", "source/MiscSparse.cpp:126-267"]}
{"id": "C106", "title": "A sparse atmosphere file is as good as the dense one, cell by cell", "statement": "For every dense atmosphere (2D and 3D), temperature threshold and execution order: every cell of a tile that has a cell at or below the threshold gets in the program's storage the value of the file, all other cells get no storage; a sparse file listing the same tiles in any order, with the values laid out tile by tile in that order, gives the same value for every cell whatever threshold is configured; a sparse file is only accepted when its block size is the compiled one, its sides are multiples of it and its cell count matches its tile list.", "quantifier": "every atmosphere size, temperature field, threshold, tile order, iteration order", "why_tests_cant": "unbounded grids, all tile orders and all schedules", "anchors": ["source/Atmosphere.hpp:10-440", "source/BlockMap.cpp:326-450", "source/MiscSparse.cpp:7-105"]}
{"id": "C107", "title": "Floating-point marching stays close to the exact solution of the transfer equation", "statement": "For every sequence of voxels with positive opacity, non-negative emissivity and length, and source function and incoming intensity at most M, in any binary floating-point format (precision at least 6 bits, gradual underflow), with rounding to nearest and whatever multiply-adds the compiler fuses, and any exp/expm1 with absolute error em on the non-positive axis: the computed intensity is never negative and differs from the exact solution by at most (1+3u)^n n (M(13u+3em+underflow term)+underflow), the computed optical depth is non-negative with relative error about (n+4)u, and merging two intervals adds an error that does not grow with the optical depth. In single precision with exp within 2^-23, 1000 voxels give at most M/800.", "quantifier": "every list of voxels, every precision, rounding tie rule, fused-multiply-add choice and libm within the stated error, every n", "why_tests_cant": "a test compares a few rays in one precision on one compiler; the bound is for all rays and all evaluation choices", "anchors": ["source/RayMarching.hpp:293-305 (merge_intervals)", "source/RayMarching.hpp:590-602 (multi_level_dda_raymarch_2d)"]}
{"id": "C108", "title": "Line widths come from the terms the model file lists", "statement": "In every cell the damping width of a line is the sum of the entries of that line's broadening list in its model file (natural width, and scaling * T^a * nH^b * ne^c for each scaled entry), for any set of species packed together. It is at least each entry and never decreases with temperature or density when exponents are not negative. The Doppler width is positive and its square is the sum of the thermal and turbulent parts; the damping parameter is width / (4 pi * Doppler width in Hz). Expected: the width is always a number. Violated: without a natural entry it is uninitialised, and a zero density with a negative exponent gives infinity or NaN.", "quantifier": "every set of species, every line, list of entries, temperature and densities (real numbers)", "why_tests_cant": "continuum of conditions and every packing of tables", "anchors": ["source/EmisOpac.hpp: thermal_vel, doppler_width, damping_from_gamma, gamma_from_broadening", "source/CrtafParser.hpp: parse_crtaf_model", "source/Populations.hpp: to_atomic_data"]}
{"id": "C109", "title": "Start-up changes the atmosphere only as far as conservation was requested", "statement": "Before the first pass: without charge conservation (or without a hydrogen model) the electron and hydrogen densities are those of the atmosphere; without pressure conservation the total hydrogen density is, provided the charge update alone does not change it; with charge conservation the LTE iteration runs at least six times (or max_iter times if that is smaller) and at most max_iter times; the charge update conserves pressure itself exactly when pressure conservation is requested in 3D, never in 2D (a rescaling follows it there).", "quantifier": "every configuration, atmosphere, solver behaviour and number of iterations, 2D and 3D", "why_tests_cant": "all solver behaviours and iteration histories", "anchors": ["source/main.cpp:895-964", "source/main_3d.cpp:733-792"]}
{"id": "C110", "title": "Every way of merging with the cascade above is a proper average", "statement": "In each merge configuration (Vanilla, BilinearFix, ParallaxFix) the intensity of a merged ray stays within the range of the source functions along it and of the intensities above, and equals the source function in thermal equilibrium; BilinearFix marches from exactly the point where the upper ray begins to this ray's near end; ParallaxFix reads the upper ray pointing at the cone point; without a cascade above all are the plain march. Expected also: the approximate operator is the one the march found, and Doppler shifts belong to the marched direction. Violated in BilinearFix: the operator is zero whenever there is a cascade above, and mu stays that of the unmodified ray.", "quantifier": "every probe, ray, cascade, configuration of branching, every upper field and march result", "why_tests_cant": "continuum of fields and all geometries", "anchors": ["source/RadianceCascades.hpp: march_and_merge_average_interval, march_and_merge_bilinear_fix, march_and_merge_parallax_fix, march_and_merge_dispatch"]}
{"id": "C111", "title": "Long characteristics in 3D: every direction reaches J once, with its quadrature weight", "statement": "Expected: with the long-characteristics quadrature and given emissivity and opacity, J of every voxel is the sum over the directions of the chosen set of weight times the intensity found along that direction, for any order of the voxels. Violated: the accumulation sums every stored direction of cascade 0 although only the first is written for each direction of the set, so what the buffer held before is added in with the whole weight (12 times the answer for a uniform field in the default layout); it holds when cascade 0 stores one direction or the buffer starts cleared. The direction sets are unit vectors with positive weights integrating every linear field and the second moments to the tabulated precision, and each ray starts outside any grid of up to 11000 cells a side.", "quantifier": "every grid, set of directions, intensities, order of the parallel iterations, initial buffers", "why_tests_cant": "orders of parallel loops and all fields; left-over buffer contents", "anchors": ["source/StaticFormalSolution3d.cpp: static_formal_sol_long_char_3d, merge_c0_to_J_3d", "source/UserConfig3d.hpp: LC quadrature tables"]}
{"id": "C112", "title": "The 3D ray march solves the transfer equation", "statement": "Along a 3D ray the intensity and optical depth are those of the formal solution of the sampled slabs in order from the far end; the intensity satisfies dI/ds = eta - chi I as the last slab is crossed; it stays between the extreme source functions and the incident intensity; the returned operator is exactly the response of the intensity to the emissivity of the last voxel; only the velocity component along the ray matters; the incident intensity is the boundary condition evaluated at the ray origin for rays coming from below and zero otherwise; with given emissivity and opacity the simpler march gives the same numbers.", "quantifier": "every ray, list of slabs, emissivity, opacity, velocity field, incident intensity", "why_tests_cant": "continuum of fields and unbounded rays", "anchors": ["source/DynamicFormalSolution3d.cpp: dda_raymarch_3d, march rays", "source/StaticFormalSolution3d.cpp: dda_raymarch_3d"]}
{"id": "C113", "title": "A 2D run with given emissivity and opacity solves every wavelength alone", "statement": "A run in given-formal-solution mode terminates without out-of-range access; whatever the batch size, each plane of the written J is the cascade mean intensity of the emissivity and opacity planes loaded for its batch; if a ray only reads its own wavelength, plane la is the mean intensity of eta(.,.,la), chi(.,.,la) alone: the same for every batch size, number and values of other wavelengths, storage of J on host or device, and previous memory contents; the recorded mip level of a wavelength is the one chosen for its batch.", "quantifier": "every grid, number of wavelengths, batch size, input data, ray march, initial memory contents", "why_tests_cant": "unbounded numbers of wavelengths and batches, all fields and all initial memory", "anchors": ["source/main.cpp: allocate_J, init_given_emis, given formal solution branch, save_results", "source/StaticFormalSolution.cpp: static_formal_sol_given_rc", "source/DexrtConfig.hpp: DexrtMode"]}
{"id": "C115", "title": "Ray tools: the background spectrum behind the model", "statement": "For every wavelength sought, inside or outside the range of the boundary file and for files with one wavelength or many, the ray tools read only inside the table and use the piecewise linear interpolant of the tabulated intensity (the end values outside, the tabulated value at a tabulated wavelength), then interpolate in the incidence cosine; the result stays between the tabulated extremes, zero for rays that miss the Sun. Expected also: this is the illumination the model was solved with. Violated: the solver resamples the same file flux-conservingly: zero beyond the file's range where the tool takes the last intensity, and a bin average inside.", "quantifier": "every boundary file, wavelength and direction", "why_tests_cant": "continuum of wavelengths, arbitrary table sizes", "anchors": ["source/PromweaverBoundary.cpp: load_bc", "source/dexrt_ray.cpp: main", "source/Utils.hpp: upper_bound"]}
{"id": "C114", "title": "Ray tools work on the state the run ended with", "statement": "For a run written in any 2D output format (or sparse 3D), the ray tool's populations, electron and hydrogen densities of every active cell are those at the end of the run, whatever the schedules; a file without populations is refused. Expected without further conditions. Violated: a charge- or pressure-conserving run asked not to write a density is synthesised silently with the initial density and the final populations; the 3D tool refuses every model written in the default (dense) format.", "quantifier": "every block map, run, output configuration, schedule of the copies", "why_tests_cant": "all configurations, maps and values", "anchors": ["source/dexrt_ray.cpp: load_dex_output, update_atmosphere, dex_data_is_sparse", "source/dexrt_ray_3d.cpp: load_dex_output, update_atmosphere", "source/main.cpp: save_results", "source/main_3d.cpp: save_results"]}
{"id": "C116", "title": "A converged non-LTE solution is self-consistent", "statement": "For every atom (any number of levels, lines, continua and collisional rates), radiation field, approximate operator, quadrature and order in which wavelengths, directions, threads and processes add their contributions: if a non-LTE pass returns the populations its rates were computed from, those populations are in statistical equilibrium with the radiation field (upward B J-bar and photoionisation, downward A + B J-bar and recombination, plus collisions) and add up to the element's density, so the operator speeds up convergence but cannot change the solution; the only trace it leaves is a factor 1 - 1e-20 psi on spontaneous rates, from the opacity floor. Conversely, populations in that equilibrium are left unchanged by a pass whenever the preconditioned rates are non-negative and connected.", "quantifier": "every atom, cell, radiation field, operator, quadrature, summation order and level eliminated", "why_tests_cant": "ranges over continuous fields, arbitrary atoms and all summation orders; a run only shows one converged case", "anchors": ["source/DynamicFormalSolution.cpp: dynamic_compute_gamma_nonatomic, dynamic_compute_gamma_atomic", "source/DynamicFormalSolution3d.cpp: dynamic_compute_gamma", "source/GammaMatrix.hpp: add_to_gamma, fixup_gamma", "source/Populations.cpp: stat_eq_impl", "source/main.cpp: main"]}
{"id": "C117", "title": "What the convergence criterion guarantees", "statement": "For every atom and tolerance: when the reported change of a pass is at most tol, the populations of a cell moved in total by at most 2 (tol + n frac) of the element's density (frac: the fraction below which changes are ignored, n levels), and the populations the radiation field was computed from violate statistical equilibrium by at most that times the largest rate; where no level is below the threshold, by at most 2 tol of the traffic through the level. Expected also: every level changed by at most tol relative to its population. Violated: a level below the threshold may change by any factor without being reported (example: a factor 500000 with tol = frac = 1e-6).", "quantifier": "every rate matrix, population vector, tolerance and threshold", "why_tests_cant": "universally quantified over continuous populations and rates", "anchors": ["source/Populations.cpp: stat_eq_impl", "source/main.cpp: main"]}
{"id": "C118", "title": "LTE hydrogen splits consistently into neutral and ionised", "statement": "For every temperature, electron density and hydrogen density: the tabulated partition function lies between 2 and 108.4327, never falls with temperature and is exact at its nodes; neutral atoms plus protons are exactly the hydrogen density, both strictly positive and proportional to it; over the whole temperature range hotter gas is strictly more ionised (in spite of the rising partition function) and more electrons make it strictly less ionised.", "quantifier": "every temperature, electron density and total density", "why_tests_cant": "continuous arguments, including every segment of a 31-point table", "anchors": ["source/LteHPops.hpp: HPartFn, nh0_lte", "source/Utils.hpp: interp, upper_bound"]}
{"id": "C119", "title": "The saved radiation field and populations belong together", "statement": "For every configuration, start or restart and whatever the formal solution and update do: a run ends; the saved populations and densities are those that the last pass computed from exactly the saved J, or, with the final dense formal solution, J is the formal solution of exactly the saved populations and densities; they are never an extrapolation nobody solved for. In LTE the state is unchanged and J is its formal solution. Expected also for a restart. Violated: restarting at or beyond the pass limit without the final dense solution saves J = 0 beside the snapshot populations.", "quantifier": "every loop configuration, acceleration setting, initial state, formal solution and update", "why_tests_cant": "histories of unbounded length with arbitrary pass results", "anchors": ["source/main.cpp: main", "source/main_3d.cpp: main"]}
{"id": "C120", "title": "A converged charge-conserving iteration is an equilibrium, neutral state", "statement": "For every rate matrix, schedule of the update loop and eliminated level: if an iteration (statistical equilibrium, then the Newton update of electron density and pressure) returns the hydrogen populations, electron and hydrogen density it started from, these are in statistical equilibrium, add up to the hydrogen density, are neutral and have the gas pressure if it is conserved. If the reported change is at most tol (below 0.4), the electron density and every level above the threshold took the full, unclamped Newton step of relative size at most tol, the result is exactly neutral and conserving when no level is below the threshold, and the state before was neutral to within tol. Expected also: no negative populations and no unreported change. Violated: a level below the threshold that is driven negative is not reported and its step is multiplied by at least 0.95(1-tol)/tol; under pressure conservation the populations are rescaled after the change was measured (1% reported, 2.01% real; never more than 2 tol + tol^2).", "quantifier": "every rate matrix, state, schedule, tolerance and threshold", "why_tests_cant": "all continuous states, matrices and thread orders", "anchors": ["source/main.cpp: main", "source/Populations.cpp: stat_eq_impl", "source/ChargeConservation.cpp: nr_post_update_impl"]}
{"id": "C121", "title": "The configuration file means what it says", "statement": "For every YAML file, reading it succeeds with a configuration exactly when every setting of that configuration is the value the file gives at that setting's key (converted to its type) if the chosen mode uses the setting and the file gives it, and the documented default otherwise; the atoms are those of the file, in its order, each with its own path, treatment and initial populations; unknown words for mode, treatment, initial populations or boundary, an atom without path and a run without atoms are rejected; mem_pool_gb takes precedence over its deprecated name; of duplicate keys the first counts; the only undefined behaviour is an empty mip_levels list. Expected also: unknown (misspelt) keys and settings the mode cannot honour are reported. Violated: both are ignored without effect, even if their value does not parse.", "quantifier": "every YAML document, every meaning of the number and boolean conversions", "why_tests_cant": "all files", "anchors": ["source/DexrtConfig.hpp: parse_dexrt_config, parse_extra_lte, parse_extra_nonlte, parse_extra_givenfs, parse_mip_config, parse_and_update_dexrt_output_config", "source/Types.hpp: ModelAtomConfig"]}
{"id": "C122", "title": "A whole floating-point cascade solution is close to the exact one, whatever the thread order", "statement": "For every binary precision of at least 7 bits, tie rule, fused multiply-add placement (per kernel), exp/expm1 with bounded error, scene with source functions and boundary radiation in [0,M], number of cascades and order in which the threads add their contributions to J: every computed intensity is non-negative and, with J, within an explicit bound (a sum over the cascades of a term proportional to the number of voxels on the ray) of the exact radiance-cascade solution over the same sampled voxels; the interpolation weights are computed exactly. In binary32 with at most 1000 voxels through up to six cascades and 100 directions, J is within M/750. Two orders of the same additions differ at most by the rounding of the additions. Expected also: the same calculation run twice gives the same J. Violated: for every tie rule two orders of three contributions give different binary32 results.", "quantifier": "every precision, rounding tie rule, contraction, libm, scene, cascade count and order of atomic additions", "why_tests_cant": "all float inputs, thread orders and compilers", "anchors": ["source/RadianceCascades.hpp: march_and_merge_average_interval", "source/RcUtilsModes.hpp: bilinear_corner, bilinear_weights", "source/MergeToJ.hpp: merge_c0_to_J", "source/RayMarching.hpp: multi_level_dda_raymarch_2d, merge_intervals"]}
{"id": "C123", "title": "A 3D run with given emissivity and opacity solves every wavelength alone", "statement": "A 3D run in which emissivity and opacity are given terminates without an access outside any array, for every number of wavelengths, grid, previous contents of the buffers and order of every parallel loop; afterwards plane la of J in memory holds, at (z*y_dim+y)*x_dim+x, the mean intensity of the radiance-cascade solution for the given emissivity and opacity of wavelength la alone: what the other wavelengths contain has no influence. (That the output file does not contain this J is C105.) When the cascades fit into their buffers (C104).", "quantifier": "every grid, active-tile map, spectrum, buffer contents and thread order", "why_tests_cant": "all sizes, spectra and schedules", "anchors": ["source/StaticFormalSolution3d.cpp: static_formal_sol_rc_given_3d", "source/main_3d.cpp: init_given_emis_opac, allocate_J"]}
{"id": "C124", "title": "The formal solution as an operator: bounded, exact in equilibrium, monotone, linear and stable", "statement": "For the whole 2D and 3D formal solution (all cascades, all passes, buffers, merge into J) and any order of its parallel loops: if the segments of the outermost cascade carry intensities between lo and hi and every other segment keeps an intensity between lo and hi there, then what J gains at every probe lies between lo and hi; in particular boundary radiation B and segments that keep B give exactly B (thermal equilibrium); brighter segments never give less J; with fixed transmissions J is a linear function of what the segments emit; and if every segment is changed by at most eps (not amplifying what passes through it), J changes by at most (N+1)*eps for cascades 0..N: errors of segments add up through the hierarchy, they are not amplified.", "quantifier": "every configuration, grid, active-probe family, cascade count, schedule, buffer contents, segment function", "why_tests_cant": "all scenes and schedules at once", "anchors": ["source/RadianceCascades.hpp: march_and_merge_average_interval", "source/DynamicFormalSolution.cpp", "source/DynamicFormalSolution3d.cpp", "source/StaticFormalSolution3d.cpp", "source/MergeToJ.hpp: merge_c0_to_J"]}
{"id": "C125", "title": "Statistical equilibrium is the same in both builds; the zero-radiation start", "statement": "The zero-radiation start puts every atom that asks for it, and no other level, into the unique non-negative equilibrium of its collisional plus spontaneous radiative rates with the right total, whatever the order of the rate sums (portable build). The MAGMA build's transposed, pivoted solve returns the unique non-negative equilibrium whenever some level can be reached from all, for any order of its parallel loops and whatever the memory held, and fails only when the rates leave the populations undetermined; for all atoms together, wherever the portable build returns populations MAGMA returns the same ones (the converse fails: unpivoted elimination). Expected: stat_eq restricted to one atom leaves the others alone in both builds. Violated: the MAGMA build ignores only_atom, so one atom with the zero-radiation start re-solves all of them; atoms to be left in LTE end in the equilibrium of their collisional rates, which is the same only when those rates are in detailed balance (not with charge exchange).", "quantifier": "every number of atoms, levels, rates, abundances, previous populations, schemes, loop orders and stale memory", "why_tests_cant": "a family of matrices and layouts of every size; the two builds cannot be run side by side; the overwrite is invisible for most atoms", "anchors": ["source/Populations.cpp:102-662", "source/InitialPops.cpp:9-101", "source/Populations.hpp:943-948"]}
{"id": "C126", "title": "The MAGMA build's Newton update of populations and electron density", "statement": "In any schedule of its kernels the MAGMA build's charge-conservation update moves every hydrogen level and the electron density by one common step length z in [1/10000, 1] (1 unless something would turn negative) times a step that solves the rate equations linearised about the current state and shrinks the charge imbalance by exactly 1-z; a value keeps its sign exactly unless its step exceeds 10000 times the value. When the conservation row is written last, the missing hydrogen shrinks by 1-z (number mode), and without clamping both builds compute the same cell. Expected: the requested pressure is approached, and the result does not depend on thread timing. Violated: under pressure conservation the total particle density stays what it was; and one matrix entry is assigned by one iteration while another adds to it, so in the other order hydrogen atoms appear or vanish in proportion to the electron density step (two-level example: 2 atoms become 1).", "quantifier": "every number of levels, rates, populations, densities, continua, loop orders and stale memory", "why_tests_cant": "a data race shows only for some timings; matrices of every size; the two builds cannot be run side by side", "anchors": ["source/ChargeConservation.cpp:8-445", "nr_post_update_impl"]}
{"id": "C127", "title": "Coarsened velocity tables are means of the finer tables", "statement": "With velocity-interpolated lines, the mip construction runs without out-of-range access for every order of its parallel iterations and leaves the base cells unchanged; at each velocity bin of its own range a coarse voxel reads the mean of the four voxels below read at that velocity, a straight line between neighbouring bins and the end value outside the range; at every level and velocity the value stays between the smallest and largest values stored for the base cells it covers; and where all cells under it share one velocity range, it is exactly the arithmetic mean of the base cells at every velocity.", "quantifier": "every grid, set of active tiles, number of levels and bins, velocity ranges, stored values and order of the parallel iterations", "why_tests_cant": "the sampled values and velocity ranges are continuous, and levels are built from levels in any thread order", "anchors": ["source/DirectionalEmisOpacInterp.cpp: compute_subset_mip_n", "source/Mipmaps.cpp: compute_subset_mips", "source/DirectionalEmisOpacInterp.hpp: sample"]}
{"id": "C128", "title": "A whole 3D floating-point cascade solution is close to the exact one, whatever the thread order", "statement": "For every binary precision of at least 7 bits, tie rule, fused multiply-add placement, exp/expm1 with bounded error, scene with source functions and boundary radiation in [0,M], number of cascades, power-of-two number of subdivided directions and order in which the threads add to J: the eight trilinear weights divided by the number of directions are computed without rounding; every computed intensity is non-negative and, with J, within an explicit bound of the exact 3D cascade solution over the same sampled voxels (J: the mean over the directions of the first cascade). In binary32 with four directions per upper probe, at most 1000 voxels through up to six cascades and 192 directions, J is within M/750. Two orders of the same additions differ at most by the rounding of the additions.", "quantifier": "every precision, rounding tie rule, contraction, libm, scene, cascade count, direction subdivision and order of atomic additions", "why_tests_cant": "all float inputs, thread orders and compilers", "anchors": ["source/DynamicFormalSolution3d.cpp:444-515 march_and_merge_average_interval_3d", "source/DynamicFormalSolution3d.cpp:599-641 merge_c0_to_J_3d", "source/StaticFormalSolution3d.cpp:40-104, 179-214", "source/RcUtilsModes3d.hpp:215-244 trilinear_corner, trilinear_weights"]}
{"id": "C129", "title": "Floating-point ray traversal of the grid always ends and reads stored cells only", "statement": "For every binary precision of at least 8 bits, tie rule, fused multiply-add placement, 2D or 3D grid, block size and block-wise level map, and every clipped ray (direction of length about one, length resolved by the format to 1e-3/7: about 2100 voxels in binary32): stepping through the grid from non-negative first hits always ends, within an explicit number of steps; every sample starts before the end of the ray plus one and has a length that is not negative and not beyond the ray's end by more than one rounding; every sample is at the level the map stores for its cell, and never in an empty cell, so no read outside the stored data can follow. A ray that starts inside the grid and off a far face has non-negative first hits.", "quantifier": "every precision, tie rule, contraction, grid, level map, ray origin, direction and length", "why_tests_cant": "all float inputs: accumulated hit times may fall behind the ray or tie; a test ray that ends says nothing about the next one", "anchors": ["source/BlockMap.hpp:1017-1300 MultiLevelDDA init, update_mip_level, next_intersection, step_through_grid", "source/Types.hpp:205-222"]}
{"id": "C130", "title": "Clipping a ray to the grid in floating point keeps the right part of it, to a small fraction of a voxel", "statement": "For every binary precision of at least 8 bits, tie rule, contraction, box, ray origin, direction (components of at most 2, zero included) and interval: the kept part lies inside the interval asked for and inside the box with its faces moved out by four roundings of their distance from the ray's origin, and contains every point of the interval inside the box with its faces moved in by as much; no such ray is rejected. Moving the origin to the start of the kept part moves the ray by an explicit bound. In binary32 with up to 4096 cells a side and rays from up to 24576 voxels away (the last cascade reaches 2e4) the marched ray is within 1/128 voxel of the one asked for and within 1/64 voxel of the grid, and no point 1/100 voxel inside is lost. Expected further: shrinking the box by 1e-4 forces the start of every clipped ray into the grid. Violated: a ray from 18040 voxels away starts 1/1024 voxel outside, in cell -1.", "quantifier": "every precision, tie rule, contraction, box, ray and interval", "why_tests_cant": "all float inputs: cancellation depends on origin, direction and face together", "anchors": ["source/Types.hpp:195-293 RaySegment, intersects, clip, update_origin", "source/BlockMap.hpp:1044-1055 MultiLevelDDA::init", "source/UserConfig2d.hpp:119", "source/UserConfig3d.hpp:52"]}
{"id": "C131", "title": "Rounding does not make a ray read the wrong cells or skip stored ones", "statement": "For every binary precision of at least 8 bits, tie rule, contraction, map of levels, and ray that starts inside the grid (2D or 3D): each point of each sample lies in the cell that is read, up to an explicit drift: a constant, one rounding of the coordinates per step, and 2e-6 (1 + t) (and some roundings) for each step so short that it may have been pushed past a corner. And every point of the ray up to its end is in a sample, or at most 0.012 voxel after one (where the level of the map changes), or within a small tolerance of a block that is stored as empty. In binary32 with coordinates up to 4096 and rays of up to 2000 voxels: 1/100 + (i+1)/3800 + (number of samples shorter than 1/200 so far)/110 voxel for sample i, and 0.045 voxel for the empty blocks.", "quantifier": "every precision, tie rule, contraction, map of levels, ray starting inside the grid, sample and point of the ray", "why_tests_cant": "all float inputs: the drift accumulates over an unbounded number of steps and level changes", "anchors": ["source/BlockMap.hpp:1017-1300 MultiLevelDDA", "source/Types.hpp:195-220 RaySegment"]}
{"id": "C132", "title": "ParallaxFixInner: the separate merge pass combines exactly the marched intervals with the cascade above", "statement": "In the configuration ParallaxFixInner one level of the 2D solution first marches every ray of every active probe, then merges, then copies. For every order in which the iterations of each of the three loops run: above the threshold cascade the stored intensity of a ray is the bilinear mean over four upper probes of (the level's own marched intervals interpolated between the two neighbouring directions that point from the probe to where the middle upper ray of that probe begins) plus (transmittance of that interpolation, at least exp(-1e4)) times (mean of the upper rays); the optical depth likewise; nothing already merged is read; the lambda operator is the march's own; texels of inactive probes are untouched. The intensity stays within the bounds of source functions and intensities above (up to a factor 1 + exp(-1e4) where an interval is thicker than the cap, exactly otherwise), thermal equilibrium is reproduced, and where all directions of a probe see the same the result is that of the ordinary merge. At and below the threshold the ordinary merge is stored, in the outermost cascade the march.", "quantifier": "every configuration of branching factors, level, set of active probes, order of the three loops, march results, upper cascade and previous contents", "why_tests_cant": "all schedules of three parallel loops that read and write the same arrays, and all radiation fields", "anchors": ["source/RadianceCascades.hpp:452-613 parallax_fix_inner_merge", "source/RadianceCascades.hpp:346-394 march_parallax_fix_inner", "source/RadianceCascades.hpp:203-242 interp_probe_dir", "source/RadianceCascades.hpp:688-786 cascade_i_25d"]}
{"id": "C133", "title": "The ray of a 2D probe in floating point", "statement": "The ray handed to the marcher is built from the probe centre and the two ends of the interval in floating point; its length is recovered by dividing the difference of the ends' first coordinates by the first component of the direction. Expected: the marched segment is the intended one to within a voxel. Proved, for every precision, tie rule and contraction of the multiply-adds: every point of the segment lies within a few roundings of the intended line at the intended distance, and the length differs from that of the interval by at most 3u|x|/|d_x| + 12u*to (plus underflow); in binary32, up to 4096 voxels and 20000 voxels of ray, by at most 1/60 + 1/(1300 |d_x|) voxel. Violated for directions close to vertical: in cascade 6 of the committed configuration, a probe at x = 4064 and direction 4095 of 16384 give a segment more than one voxel too long.", "quantifier": "every precision, tie rule, contraction, probe centre, direction and interval", "why_tests_cant": "rounding errors depend on every bit of the inputs and the compiler's contraction choices", "anchors": ["source/RcUtilsModes.hpp:498-519 ray_props, invert_direction", "source/RayMarching.hpp:440-444 ray_seg_from_ray_props"]}
{"id": "C134", "title": "What a ray-tool configuration file means, and which views it renders", "statement": "A configuration file of the 2D or 3D ray tool is accepted exactly when it has the mandatory keys with the right shapes, the lists of directions agree in number and are not empty, and the model it points to has atoms and a Promweaver boundary; every setting then has the value of its key or its documented default, the wavelengths are those asked for or else those of the model's output, and view i uses entry i of each list. The 2D tool never reads outside a list. Expected of the 3D tool too; violated: the number of image_corner entries is never compared with the number of views, so a file with fewer corners than views is accepted and the tool reads past the end of the list (exactly then), and supersample: 0 is accepted and gives images without pixels.", "quantifier": "every YAML document, model configuration and stored wavelength list", "why_tests_cant": "the shapes of a YAML document (missing keys, scalars, sequences, maps, nesting, lengths) are unbounded", "anchors": ["source/dexrt_ray.cpp:94-190 parse_ray_config, load_wavelength_if_missing", "source/dexrt_ray.cpp:850-914 main", "source/dexrt_ray_3d.cpp:71-190 parse_ray_config", "source/dexrt_ray_3d.cpp:268-281 compute_ray_set", "source/dexrt_ray_3d.cpp:506-549 main"]}
{"id": "C135", "title": "What the output files contain", "statement": "Whatever combination of outputs is asked for, no write to the output file fails: every dimension name has one size throughout the file. The 2D and 3D model's files then hold exactly the variables asked for that the run has, each over its documented dimensions, with its own contents. The ray tools' files hold, for every view, the intensity and optical depth of every ray of that view (whatever the views before it left in the arrays that are used again, and in any order of the iterations), its starting points and, if asked for, the quantities along its rays; no two views share a variable.", "quantifier": "every output configuration, mode, set of sizes, list of views and order of iterations", "why_tests_cant": "the combinations of flags, sizes, numbers of views and sequences of view sizes are unbounded", "anchors": ["source/main.cpp:743-832 save_results", "source/main_3d.cpp:434-531 save_results", "source/dexrt_ray.cpp:754-835 setup_output, write_output_plane", "source/dexrt_ray.cpp:912-945 main", "source/dexrt_ray_3d.cpp:434-492 setup_output, write_output_plane", "source/dexrt_ray_3d.cpp:548-584 main"]}
