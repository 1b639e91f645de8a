{"id": "C01", "title": "Reduction to canonical balanced form", "statement": "spasm_ZZp_init(F, x) returns the unique integer congruent to x modulo p in the balanced interval [p/2-p+1, p/2], which always fits in a 32-bit spasm_ZZp.", "quantifier": "every modulus 2 <= p <= 0xfffffffb accepted by spasm_field_init and every 64-bit x", "why_tests_cant": "2^32 moduli times 2^64 arguments", "anchors": ["src/spasm_ZZp.c: spasm_field_init, NORMALISE, spasm_ZZp_init"]}
{"id": "C02", "title": "Exact modular addition and subtraction", "statement": "On canonical operands spasm_ZZp_add / spasm_ZZp_sub return the canonical representative of a+b / a-b modulo p.", "quantifier": "every modulus and every pair of canonical operands", "why_tests_cant": "about 2^96 cases", "anchors": ["src/spasm_ZZp.c: spasm_ZZp_add, spasm_ZZp_sub"]}
{"id": "C03", "title": "Exact modular multiplication despite floating-point quotient", "statement": "spasm_ZZp_mul returns the canonical representative of a*b modulo p although the quotient is estimated in double precision with three roundings; no 64-bit intermediate overflows.", "quantifier": "every modulus 2..0xfffffffb and all operands bounded by p in absolute value", "why_tests_cant": "rounding errors could bite on a handful of the 2^96 triples", "anchors": ["src/spasm_ZZp.c: spasm_ZZp_mul, NORMALISE"]}
{"id": "C04", "title": "Exact modular axpy despite floating-point quotient", "statement": "spasm_ZZp_axpy(a,x,y) returns the canonical representative of a*x+y modulo p, whether or not the compiler contracts the double expression into a fused multiply-add; no 64-bit intermediate overflows.", "quantifier": "every modulus, all operands bounded by p in absolute value, both contraction choices", "why_tests_cant": "2^128 cases and a compiler-dependent evaluation", "anchors": ["src/spasm_ZZp.c: spasm_ZZp_axpy"]}
{"id": "C05", "title": "Modular inverse", "statement": "For prime p and a not congruent to 0, spasm_ZZp_inverse terminates and returns the canonical b with a*b congruent to 1 mod p.", "quantifier": "every prime modulus and every non-zero canonical a", "why_tests_cant": "number-theoretic universal; loop length depends on input", "anchors": ["src/spasm_ZZp.c: gcdext, spasm_ZZp_inverse"]}
{"id": "C06", "title": "Compression preserves the matrix", "statement": "spasm_compress returns a well-formed CSR matrix, without duplicate column in a row and without explicit zero, denoting the same matrix as the triplets (sum of duplicates modulo p).", "quantifier": "every triplet matrix, every order and multiplicity of entries", "why_tests_cant": "depends on interaction of duplicates, cancellations and row order", "anchors": ["src/spasm_triplet.c: spasm_compress, deduplicate, remove_explicit_zeroes"]}
{"id": "C07", "title": "Adding entries", "statement": "spasm_add_entry appends exactly the reduced entry (or nothing when it is zero modulo p), grows capacity when full without losing entries, keeps nz <= nzmax, and enlarges the dimensions to cover the new indices.", "quantifier": "every history of additions starting from any allocated capacity (including 0)", "why_tests_cant": "unbounded operation histories", "anchors": ["src/spasm_triplet.c: spasm_add_entry, spasm_triplet_transpose", "src/spasm_util.c: spasm_triplet_alloc, spasm_triplet_realloc"]}
{"id": "C08", "title": "Transposition", "statement": "spasm_transpose returns a well-formed m x n matrix with entry (j,i) equal to entry (i,j) of the input; columns in each output row are sorted; transposing twice gives the same matrix back.", "quantifier": "every well-formed CSR matrix", "why_tests_cant": "all shapes and sparsity patterns", "anchors": ["src/spasm_transpose.c: spasm_transpose"]}
{"id": "C09", "title": "Row/column permutation of a matrix", "statement": "spasm_permute(A,p,qinv) returns C with C[i,qinv[j]] = A[p[i],j] for permutations p, qinv (NULL = identity), with the same number of entries.", "quantifier": "every matrix and every pair of permutations", "why_tests_cant": "all permutations", "anchors": ["src/spasm_permutation.c: spasm_permute"]}
{"id": "C10", "title": "Submatrix extraction", "statement": "spasm_submatrix(A,r0,r1,c0,c1) returns B of size (r1-r0) x (c1-c0) with B[i,j]=A[r0+i,c0+j]; reversed ranges yield an empty matrix.", "quantifier": "every matrix and all bounds", "why_tests_cant": "all shapes and windows", "anchors": ["src/spasm_submatrix.c: spasm_submatrix"]}
{"id": "C11", "title": "Vector permutations are mutually inverse", "statement": "spasm_pvec applies P, spasm_ipvec applies its inverse, spasm_pinv returns the inverse permutation, spasm_range_pvec permutes the window [a,b) and leaves the rest unchanged.", "quantifier": "every permutation, vector and window", "why_tests_cant": "all permutations", "anchors": ["src/spasm_permutation.c: spasm_pvec, spasm_ipvec, spasm_pinv, spasm_range_pvec"]}
{"id": "C12", "title": "Random permutation is a permutation", "statement": "spasm_random_permutation(n) returns a permutation of 0..n-1 for every sequence of values returned by rand().", "quantifier": "every n and every rand() stream", "why_tests_cant": "all random streams", "anchors": ["src/spasm_permutation.c: spasm_random_permutation"]}
{"id": "C13", "title": "Sparse matrix-vector products", "statement": "spasm_xApy and spasm_Axpy add x*A (resp. A*x) to y modulo p with canonical results; spasm_scatter adds beta*A[i]; nothing else changes; no access is out of bounds.", "quantifier": "every well-formed matrix, vectors of the right size, modulus", "why_tests_cant": "all sizes, unsorted rows, duplicate columns", "anchors": ["src/spasm_spmv.c: spasm_xApy, spasm_Axpy", "src/spasm_scatter.c: spasm_scatter"]}
{"id": "C14", "title": "Reachability search", "statement": "spasm_reach terminates, stays within its 3*m workspace, returns exactly the columns reachable along alternating paths from row k of B (each once), and leaves the marks cleared so the workspace can be reused.", "quantifier": "every matrix pair, every pivot map qinv, every initial workspace content with cleared marks", "why_tests_cant": "all graphs, including cyclic ones", "anchors": ["src/spasm_reach.c: spasm_dfs, spasm_reach"]}
{"id": "C15", "title": "Reachability order is topological", "statement": "When the pivots are cycle-free, spasm_reach / spasm_dfs list columns so that each pivotal column precedes all the columns its pivotal row leads to.", "quantifier": "every acyclic pivot structure", "why_tests_cant": "all DAGs and all DFS starting orders", "anchors": ["src/spasm_reach.c: spasm_dfs, spasm_reach"]}
{"id": "C16", "title": "Sparse triangular solve", "statement": "spasm_sparse_triangular_solve returns pattern xj[top:m] and values x with x_b*U + x_a = B[k] modulo p (x_b on pivotal columns, x_a on the others), x being 0 outside the pattern by convention and not written outside it; the internal assertion never fires.", "quantifier": "every U with unit cycle-free pivots, every B and row k, any initial content of x", "why_tests_cant": "all structures, numeric cancellations", "anchors": ["src/spasm_triangular.c: spasm_sparse_triangular_solve"]}
{"id": "C17", "title": "Dense forward solve", "statement": "spasm_dense_forward_solve(U,b) returns true iff b is in the row space of U, and then x*U = b.", "quantifier": "every unit upper-triangular (up to column permutation) U and every b", "why_tests_cant": "iff over all right-hand sides", "anchors": ["src/spasm_triangular.c: spasm_dense_forward_solve"]}
{"id": "C18", "title": "Dense back solve", "statement": "spasm_dense_back_solve(L,b) returns x supported on the pivotal rows with x*L = b.", "quantifier": "every (row-permuted) lower-triangular L with invertible diagonal, every b", "why_tests_cant": "all triangular matrices", "anchors": ["src/spasm_triangular.c: spasm_dense_back_solve"]}
{"id": "C19", "title": "Linear system solving", "statement": "Given a factorization of A, spasm_solve(fact,b,x) returns true iff x*A=b has a solution, and then the returned x is a solution.", "quantifier": "every correct factorization and every b", "why_tests_cant": "iff over all right-hand sides", "anchors": ["src/spasm_solve.c: spasm_solve"]}
{"id": "C20", "title": "Multiple right-hand sides in parallel", "statement": "spasm_gesv returns X with X[i]*A = B[i] for each i with ok[i], and ok[i] iff B[i] is in the row space of A, independently of thread scheduling.", "quantifier": "every factorization, every B, every interleaving of the threads' atomic index captures and writes", "why_tests_cant": "all schedules", "anchors": ["src/spasm_solve.c: spasm_gesv"]}
{"id": "C21", "title": "Structural pivots are consistent and cycle-free", "statement": "Pivot search (Faugere-Lachartre, column variant, greedy search) yields pinv/qinv inverse of each other on pivots, each pivot on an existing entry, with no alternating cycle, and returns their number.", "quantifier": "every matrix (rows without duplicates) and, for the greedy search, every interleaving of transactions", "why_tests_cant": "all schedules and all graphs", "anchors": ["src/spasm_pivots.c: register_pivot, spasm_find_FL_pivots, spasm_find_FL_column_pivots, spasm_find_cycle_free_pivots, spasm_pivots_find"]}
{"id": "C22", "title": "Pivot rows in topological order", "statement": "The row permutation lists pivotal rows first, in an order making them upper-triangular, then all other rows, each row exactly once; its internal assertions never fire.", "quantifier": "every matrix and every cycle-free pivot set", "why_tests_cant": "all DAGs", "anchors": ["src/spasm_pivots.c: spasm_pivots_reorder"]}
{"id": "C23", "title": "Structural pivot extraction", "statement": "spasm_pivots_extract_structural appends to U rows that are the pivotal rows of A scaled to unit pivot placed first, keeps U unit upper-triangular, and records in L the scaling so that L*U reproduces these rows.", "quantifier": "every matrix and every reachable state of U/L", "why_tests_cant": "all matrices", "anchors": ["src/spasm_pivots.c: spasm_pivots_extract_structural"]}
{"id": "C24", "title": "Schur complement", "statement": "spasm_schur returns S whose rows have no entry on pivotal columns and satisfy A[p[i]] = L-part*U + S[i] modulo p, with p_out giving the original row of each S row.", "quantifier": "every matrix, pivots and thread schedule", "why_tests_cant": "all schedules and matrices", "anchors": ["src/spasm_schur.c: spasm_schur"]}
{"id": "C25", "title": "Parallel row production is race-free and schedule-independent", "statement": "In spasm_schur, spasm_rref and spasm_kernel, concurrent threads write disjoint ranges of the shared output, never write to a buffer being reallocated or past its end, never deadlock, and the final matrix consists of exactly the computed rows up to row order.", "quantifier": "every number of threads, every interleaving, every initial capacity, any row sizes", "why_tests_cant": "all interleavings", "anchors": ["src/spasm_schur.c: spasm_schur", "src/spasm_rref.c: spasm_rref", "src/spasm_kernel.c: spasm_kernel"]}
{"id": "C26", "title": "GPLU echelonization", "statement": "The GPLU finisher extends U by unit-pivot rows so that every processed row of A is in the row space of U; with L it records coefficients with A[i] = (L*U)[i].", "quantifier": "every matrix and every prior pivots", "why_tests_cant": "all matrices", "anchors": ["src/spasm_echelonize.c: echelonize_GPLU"]}
{"id": "C27", "title": "Echelon form is correct (soundness)", "statement": "Every U returned by spasm_echelonize is unit upper-triangular up to column permutation (hence full row rank) with rows in the row space of A: the returned rank never exceeds the true rank.", "quantifier": "every matrix, all options, schedules, random draws and density estimates", "why_tests_cant": "all option combinations and random streams", "anchors": ["src/spasm_echelonize.c: spasm_echelonize, echelonize_GPLU, echelonize_dense, echelonize_dense_lowrank, update_U_after_rref", "src/spasm_schur.c"]}
{"id": "C28", "title": "Rank is exact (completeness)", "statement": "The returned U spans the whole row space of A, so the returned rank equals the rank of A (barring unlucky random completion tests).", "quantifier": "every matrix, all options and schedules", "why_tests_cant": "all matrices and option combinations", "anchors": ["src/spasm_echelonize.c: spasm_echelonize, echelonize_GPLU, echelonize_dense"]}
{"id": "C29", "title": "LU factorization", "statement": "With L requested, A[i] = (L*U)[i] for every pivotal row (for every row when complete), p lists distinct pivotal rows, and L is lower-triangular on them with non-zero diagonal.", "quantifier": "every matrix, options and schedules", "why_tests_cant": "all matrices", "anchors": ["src/spasm_echelonize.c: spasm_echelonize, update_fact_after_LU"]}
{"id": "C30", "title": "Reduced row echelon form", "statement": "spasm_rref returns R with the same row space as U, unit pivots placed first and alone in their column, with Rqinv locating them, for any thread schedule.", "quantifier": "every echelonized U and every schedule", "why_tests_cant": "all matrices and schedules", "anchors": ["src/spasm_rref.c: spasm_rref"]}
{"id": "C31", "title": "Kernel basis", "statement": "spasm_kernel returns m-r rows, each k satisfying U*k^T = 0, linearly independent and spanning the right kernel, for any thread schedule.", "quantifier": "every echelonized U and every schedule", "why_tests_cant": "all matrices and schedules", "anchors": ["src/spasm_kernel.c: spasm_kernel"]}
{"id": "C32", "title": "Kernel from RREF", "statement": "spasm_kernel_from_rref returns m-r independent rows in the right kernel of R.", "quantifier": "every RREF matrix and every supported modulus", "why_tests_cant": "moduli above 2^31 are rarely tested", "anchors": ["src/spasm_kernel.c: spasm_kernel_from_rref"]}
{"id": "C33", "title": "Maximum matching", "statement": "spasm_maximum_matching terminates and returns a matching of maximum cardinality, jmatch/imatch mutually inverse and supported on entries of A, and returns its size.", "quantifier": "every sparse pattern", "why_tests_cant": "all bipartite graphs", "anchors": ["src/spasm_matching.c: spasm_maximum_matching, spasm_augmenting_path, spasm_lookahead, spasm_augment_matching"]}
{"id": "C34", "title": "Strongly connected components", "statement": "spasm_strongly_connected_components returns a permutation and block boundaries whose blocks are exactly the strongly connected components, ordered so that the permuted matrix is block upper-triangular.", "quantifier": "every square pattern", "why_tests_cant": "all digraphs", "anchors": ["src/spasm_scc.c: spasm_strongly_connected_components"]}
{"id": "C35", "title": "Dulmage-Mendelsohn decomposition", "statement": "spasm_dulmage_mendelsohn returns row/column permutations and coarse blocks making A block upper-triangular with the square part S having a zero-free diagonal and the fine blocks being block-triangular.", "quantifier": "every sparse pattern", "why_tests_cant": "all bipartite graphs", "anchors": ["src/spasm_dm.c: spasm_dulmage_mendelsohn, bfs, collect_matched, collect_unmatched"]}
{"id": "C36", "title": "SHA-256 is FIPS 180-4 SHA-256 for any chunking", "statement": "init, any sequence of update calls, final produce the FIPS 180-4 SHA-256 digest of the concatenation of the data.", "quantifier": "every byte string below 2^61 bytes and every way of splitting it into updates", "why_tests_cant": "all splits and lengths", "anchors": ["src/sha256.c: spasm_SHA256_init, spasm_SHA256_update, spasm_SHA256_final, sha256_block_data_order"]}
{"id": "C37", "title": "PRNG determinism and unbiased field elements", "statement": "The generator's output is a function of (seed, prime, seq) only; it hashes pairwise distinct blocks; every value returned by spasm_prng_ZZp is canonical, and each residue has exactly one accepted 32-bit masked preimage with acceptance rate above 1/2.", "quantifier": "every seed, modulus, sequence number and number of draws", "why_tests_cant": "all seeds and draw counts", "anchors": ["src/spasm_prng.c: rehash, spasm_prng_u32, spasm_prng_ZZp, spasm_prng_seed, spasm_prng_seed_simple"]}
{"id": "C38", "title": "Saving then loading a matrix", "statement": "Loading the bytes written by spasm_csr_save / spasm_triplet_save with the same modulus yields a triplet matrix with the same dimensions and entries.", "quantifier": "every matrix with canonical non-zero values", "why_tests_cant": "text round-trip over all values", "anchors": ["src/spasm_io.c: spasm_csr_save, spasm_triplet_save, spasm_triplet_load"]}
{"id": "C39", "title": "Hash binds the whole file", "statement": "When a hash is requested, spasm_triplet_load returns the SHA-256 of all the bytes of the accepted input file.", "quantifier": "every accepted file without NUL byte", "why_tests_cant": "all files", "anchors": ["src/spasm_io.c: read_line, spasm_triplet_load"]}
{"id": "C40", "title": "MatrixMarket loading", "statement": "Every valid MatrixMarket integer coordinate file with nnz entries is loaded with exactly these entries.", "quantifier": "every nnz (including 0), comments and entries", "why_tests_cant": "all files", "anchors": ["src/spasm_io.c: spasm_triplet_load, validate_mm_header"]}
{"id": "C41", "title": "Rank certificates are complete", "statement": "A certificate created from a correct factorization of A is accepted by spasm_certificate_rank_verify for the same A and hash.", "quantifier": "every matrix, factorization and hash", "why_tests_cant": "all seeds and matrices", "anchors": ["src/spasm_certificate.c: spasm_certificate_rank_create, spasm_certificate_rank_verify"]}
{"id": "C42", "title": "Rank certificates are sound", "statement": "A certificate accepted by spasm_certificate_rank_verify claims a rank that is not larger than the rank of A.", "quantifier": "every matrix, hash and certificate, honest or not", "why_tests_cant": "adversarial certificates", "anchors": ["src/spasm_certificate.c: spasm_certificate_rank_verify"]}
{"id": "C43", "title": "Certificate save/load round-trip", "statement": "Loading a saved certificate gives back the same certificate.", "quantifier": "every certificate", "why_tests_cant": "all values", "anchors": ["src/spasm_certificate.c: spasm_rank_certificate_save, spasm_rank_certificate_load"]}
{"id": "C44", "title": "Factorization check accepts correct factorizations", "statement": "spasm_factorization_verify returns true for every seed on a correct factorization, and its answer depends only on whether a random combination of pivotal rows agrees.", "quantifier": "every factorization and seed", "why_tests_cant": "all seeds", "anchors": ["src/spasm_certificate.c: spasm_factorization_verify"]}
{"id": "C45", "title": "Dense datatype round-trip", "statement": "spasm_datatype_write followed by spasm_datatype_read returns the same field element for the datatype chosen by spasm_datatype_choose.", "quantifier": "every modulus and canonical value", "why_tests_cant": "all values", "anchors": ["src/spasm_ffpack.cpp: spasm_datatype_read, spasm_datatype_write, spasm_datatype_choose"]}
{"id": "C46", "title": "Resizing and trimming keep the matrix", "statement": "spasm_csr_resize to more rows keeps all entries and adds empty rows; spasm_csr_realloc never loses live entries when nzmax >= nnz (or < 0).", "quantifier": "every matrix and target size", "why_tests_cant": "all sizes", "anchors": ["src/spasm_util.c: spasm_csr_resize, spasm_csr_realloc"]}
{"id": "C47", "title": "Matchings follow permutations", "statement": "spasm_permute_row_matching / spasm_permute_column_matching return the matching of the permuted matrix and spasm_submatching its restriction.", "quantifier": "every matching and permutation", "why_tests_cant": "all permutations", "anchors": ["src/spasm_matching.c: spasm_permute_row_matching, spasm_permute_column_matching, spasm_submatching"]}
{"id": "C48", "title": "Dense finisher memory safety and correctness", "statement": "Transferring a dense PLUQ / RREF result to U and L keeps U unit upper-triangular and LU consistent, and stays within its buffers.", "quantifier": "every round count, matrix and every correct dense factorization", "why_tests_cant": "multi-round runs with L requested", "anchors": ["src/spasm_echelonize.c: update_U_after_rref, update_fact_after_LU, echelonize_dense"]}
{"id": "C49", "title": "Kernel of the original matrix", "statement": "When U spans the row space of A, spasm_kernel on the echelon form returns a basis of the right kernel of A itself, and its dimension plus the rank of A is the number of columns.", "quantifier": "every matrix, every correct echelon form, every schedule", "why_tests_cant": "all matrices and schedules", "anchors": ["tools/kernel.c", "src/spasm_kernel.c: spasm_kernel", "src/spasm_echelonize.c: spasm_echelonize"]}
{"id": "C50", "title": "SMS loading", "statement": "Every well-formed SMS file (header, entry lines, end marker, anything after it) is loaded with exactly its entries, in order, reduced modulo the prime; a type other than M is rejected when values are loaded.", "quantifier": "every SMS file with lines of at most 1023 bytes", "why_tests_cant": "all files", "anchors": ["src/spasm_io.c: spasm_triplet_load", "src/spasm_triplet.c: spasm_add_entry"]}
{"id": "C51", "title": "Truncated matrix files are rejected", "statement": "A SMS file without its end marker, or a MatrixMarket file with fewer entries than announced, is never accepted.", "quantifier": "every file cut at a line boundary", "why_tests_cant": "all files", "anchors": ["src/spasm_io.c: spasm_triplet_load"]}
{"id": "C52", "title": "Chosen datatype is wide enough", "statement": "For the datatype returned by spasm_datatype_choose, every value a*x + y with a, x, y balanced representatives is held exactly (no rounding, no overflow); and for a modulus for which a wider type is chosen, the next smaller type would not hold them all.", "quantifier": "every modulus accepted by the library and all balanced a, x, y", "why_tests_cant": "needs all moduli and the extreme values of each", "anchors": ["src/spasm_ffpack.cpp: spasm_datatype_choose"]}
{"id": "C53", "title": "The transpose tool", "statement": "If the input of the transpose tool is an SMS or MatrixMarket file of an n x m matrix, whose entries at a same position do not cancel modulo 42013, then the tool succeeds and writes an SMS file of an m x n matrix, with each position at most once and reduced non-zero values, whose coefficient (j, i) is congruent to the coefficient (i, j) of the input (the sum of its entries at this position).", "quantifier": "all input files, all entries, any junk in the allocated memory", "why_tests_cant": "tests transpose a few fixed matrices; they do not cover duplicates, values to reduce, comments or white space in the text", "anchors": ["tools/transpose.c: main", "src/spasm_io.c: spasm_triplet_load, spasm_csr_save", "src/spasm_triplet.c: spasm_compress", "src/spasm_transpose.c: spasm_transpose"]}
{"id": "C54", "title": "The vertical_swap tool", "statement": "If the input of the vertical_swap tool is an SMS or MatrixMarket file of an n x m matrix then the tool succeeds and writes an SMS file of an n x m matrix whose entries are exactly, in order, those of the input that do not vanish modulo 42013, reduced, with column j replaced by m + 1 - j.", "quantifier": "all input files", "why_tests_cant": "there is no test of this tool", "anchors": ["tools/vertical_swap.c: main"]}
{"id": "C55", "title": "The stack tool", "statement": "If the input of the stack tool is an SMS or MatrixMarket file with less than 2^31 entries then the tool succeeds and writes an SMS file of the matrix restricted to its non-empty rows and columns: with R and C the increasing lists of the rows and columns that hold an entry not vanishing modulo 42013, the output has |R| rows and |C| columns, and the entries of the input, reduced, are in order those of the output with row R[i] and column C[j].", "quantifier": "all input files", "why_tests_cant": "there is no test of this tool", "anchors": ["tools/stack.c: main"]}
{"id": "C57", "title": "The rank tool", "statement": "For every input file of an n x m matrix modulo a prime p, with or without transposition, rank prints a lower bound of the rank of the matrix, which is the rank itself when the options make the elimination exhaustive. With --certificate the printed number is the rank and the certificate made is accepted for the matrix of the input file.", "quantifier": "all input files, primes p, sparse elimination options, schedules and random draws", "why_tests_cant": "the tests check a few matrices with one prime and default options; they do not exercise the certificate", "anchors": ["tools/rank.c: main", "src/spasm_io.c: spasm_triplet_load", "src/spasm_echelonize.c: spasm_echelonize", "src/spasm_certificate.c: spasm_certificate_rank_create"]}
{"id": "C58", "title": "The check_cert tool", "statement": "check_cert announces a correct certificate, and exits with 0, exactly when the certificate file is a valid rank certificate of the matrix of the input file.", "quantifier": "all matrix files and certificate files", "why_tests_cant": "there is no test of this tool", "anchors": ["tools/check_cert.c: main", "src/spasm_certificate.c: spasm_certificate_rank_verify", "src/spasm_certificate.c: spasm_rank_certificate_load"]}
{"id": "C59", "title": "The kernel tool", "statement": "For every input file of an n x m matrix modulo a prime p, kernel writes an SMS file whose rows are a basis of the right kernel (left kernel with --left) of the matrix: they are linearly independent, are in the kernel, generate it, and their number is the number of columns (rows) minus the rank; for p > 2 the values are reduced, non-zero and at distinct positions.", "quantifier": "all input files, primes p, exhaustive elimination options, schedules and random draws", "why_tests_cant": "the tests check that the product is zero on some matrices, not that the rows generate the kernel", "anchors": ["tools/kernel.c: main", "src/spasm_kernel.c: spasm_kernel", "src/spasm_echelonize.c: spasm_echelonize"]}
{"id": "C60", "title": "The solve tool", "statement": "For every input file of an n x m matrix A modulo a prime p and every file of right-hand sides B, solve writes a file of a matrix X with one row per row of B such that X A = B on each row of B which is in the row space of A, and warns for exactly the other rows of B; B that does not have m columns is refused.", "quantifier": "all pairs of input files, primes p, elimination options, schedules", "why_tests_cant": "the tests check consistent systems of a fixed size; they do not have right-hand sides of another width", "anchors": ["tools/solve.c: main", "src/spasm_solve.c: spasm_gesv", "src/spasm_echelonize.c: spasm_echelonize"]}
{"id": "C61", "title": "The echelonize tool", "statement": "For every input file of an n x m matrix modulo a prime p, echelonize writes an SMS file of a matrix in echelon form (in reduced echelon form with --rref, then with each position at most once and reduced non-zero values) whose rows are in the row space of the matrix; when the options make the elimination exhaustive, the number of rows is the rank and the row spaces are equal.", "quantifier": "all input files, primes p, elimination options, schedules and random draws", "why_tests_cant": "there are infinitely many matrices and schedules; the tests compare ranks", "anchors": ["tools/echelonize.c: main", "src/spasm_echelonize.c: spasm_echelonize", "src/spasm_rref.c: spasm_rref"]}
{"id": "C62", "title": "The dm tool", "statement": "For every input file, dm writes an SMS file of the matrix reduced modulo 42013 with its rows and columns permuted: the horizontal, square and vertical parts in this order, the square part with a non-zero diagonal. With --verbose it prints the structural rank (the size of the largest transversal), the dimensions of the three parts and the sizes of the irreducible blocks of the square part, in an order that makes it block triangular.", "quantifier": "all input files of matrices", "why_tests_cant": "there is no test of this tool on matrices whose structural rank is known", "anchors": ["tools/dm.c: main", "src/spasm_dm.c: spasm_dulmage_mendelsohn", "src/spasm_permutation.c: spasm_permute"]}
{"id": "C56", "title": "Bitmaps of matrices", "statement": "For every input file and whichever of --width, --height and --mpixels are given, bitmap writes a plain PBM or PGM image of the announced dimensions. The entry in row a and column b of the n x m matrix is drawn in row a*y/n and column b*x/m of the x by y image: a pixel is black exactly when some entry is drawn there, and a gray level depends only on the number of entries drawn there and on the largest such number. Nothing is accessed out of bounds.", "quantifier": "all input files, all image dimensions whose product fits in an int", "why_tests_cant": "there is no test of this tool; an image is hardly compared with a matrix by hand", "anchors": ["src/spasm_io.c: spasm_save_pnm", "tools/bitmap.c: main", "src/spasm_triplet.c: spasm_compress"]}
{"id": "C63", "title": "Picture of the Dulmage-Mendelsohn decomposition", "statement": "For every input file of a non-empty matrix, dm --image writes a plain PPM image of the matrix permuted in block triangular form: a pixel is black when some entry is drawn there, otherwise its colour is that of its part of the coarse decomposition and, in the square part, tells whether it is on the left, inside or on the right of the diagonal block of its row; the diagonal blocks are the irreducible ones.", "quantifier": "all input files of matrices reduced modulo 42013, all image dimensions whose product fits in an int", "why_tests_cant": "there is no test of this mode", "anchors": ["tools/dm.c: main", "src/spasm_io.c: spasm_save_pnm", "src/spasm_dm.c: spasm_dulmage_mendelsohn"]}
{"id": "C64", "title": "Pivot search stops only when nothing can be added", "statement": "The search for structural pivots is complete in the following sense: the leftmost entry of every row is in a pivotal column, every entry of a row without pivot is in a column occupied by a row with a pivot, and after the greedy search no pivot can be added without creating an alternating cycle. In particular, a matrix with an entry has at least one pivot.", "quantifier": "every matrix (rows without duplicates) and, for the greedy search, every interleaving of transactions", "why_tests_cant": "missed pivots do not make results wrong, only slow; all schedules and all graphs", "anchors": ["src/spasm_pivots.c: spasm_find_FL_pivots, spasm_find_FL_column_pivots, spasm_find_cycle_free_pivots, spasm_pivots_find"]}
{"id": "C65", "title": "What accepted matrix files contain", "statement": "If a file without NUL is accepted, it is made of lines of at most 1023 bytes: the header of an SMS file (two integers and a character, M if the values are wanted) or that of a MatrixMarket file followed by comments and three integers, then lines that start with three integers (row and column from 1), then the line 0 0 0 for an SMS file; a MatrixMarket file has at least as many entries as announced. When the announced dimensions are not negative, the matrix is made of exactly these entries, in order, reduced modulo the prime, and the file determines them.", "quantifier": "every file without NUL, every prime, with or without hash", "why_tests_cant": "malformed inputs are unbounded in number; this is the converse of the tests on valid files", "anchors": ["src/spasm_io.c: read_line, validate_mm_header, spasm_triplet_load"]}
{"id": "C66", "title": "Matrix files cut at any byte", "statement": "The beginning of a valid matrix file, cut at any byte (full disk, interrupted transfer), is either rejected or loaded as the matrix of the whole file; this holds in particular for the files written by spasm_csr_save and spasm_triplet_save.", "quantifier": "every valid file, every cut", "why_tests_cant": "every byte of every file; the only harmful cuts are rare", "anchors": ["src/spasm_io.c: spasm_triplet_load, spasm_csr_save, spasm_triplet_save"]}
{"id": "C67", "title": "The Dulmage-Mendelsohn decomposition depends on the matrix only", "statement": "Whatever the maximum matching found and the order of the entries, spasm_dulmage_mendelsohn returns the canonical parts: the columns of the horizontal part are those that some largest transversal misses and its rows those that meet them; the rows of the vertical part are those that some largest transversal misses and its columns those that meet them; rows of the square part are in the same block exactly when they are connected by entries that belong to some largest transversal. Matrices with the same pattern get the same sizes.", "quantifier": "every sparse pattern, every order of the entries, every content of uninitialised memory", "why_tests_cant": "the largest transversals of a graph cannot be enumerated by a test, and the test of the decomposition only checks the block form", "anchors": ["src/spasm_dm.c: spasm_dulmage_mendelsohn", "src/spasm_matching.c: spasm_maximum_matching", "src/spasm_scc.c: spasm_strongly_connected_components"]}
{"id": "C68", "title": "The command lines of rank, kernel and solve mean what they say", "statement": "The documented options, and only those, are accepted; each has the documented effect, the last occurrence wins, and the others have the default values of spasm_echelonize_init_opts. From the command line and the files to the result: rank never prints more than the rank, prints the rank when the whole matrix is eliminated, and with --certificate prints the rank and produces a certificate that is accepted; kernel writes a basis of the kernel; solve writes solutions and reports exactly the right-hand sides that have none.", "quantifier": "every command line (in any order, with repetitions), every file, every schedule, every random draw and every threshold", "why_tests_cant": "combinations of options, in any order, with all matrices cannot be tried; no test of the repository runs these programs with options", "anchors": ["tools/common.c: parse_input_opt, parse_ech_opt, load_input_matrix", "tools/rank.c: main", "tools/kernel.c: main", "tools/solve.c: main", "src/spasm_echelonize.c: spasm_echelonize_init_opts"]}
{"id": "C69", "title": "The command lines of echelonize, dm, bitmap and check_cert mean what they say", "statement": "The documented options, and only those, are accepted; each has the documented effect, the last occurrence wins and the others have their default values. From the command line and the standard input to what is printed: echelonize writes rows in echelon form (reduced with --rref) that generate the row space of the matrix; dm writes the permuted matrix, the sizes of the parts or the image of the last mode chosen; bitmap writes the image of the chosen dimensions; check_cert accepts the certificate exactly when it is correct.", "quantifier": "every command line (in any order, with repetitions), every file, every schedule, every random draw and every threshold", "why_tests_cant": "combinations of options, in any order, with all matrices cannot be tried; no test of the repository runs these programs with options", "anchors": ["tools/echelonize.c: main", "tools/dm.c: main", "tools/bitmap.c: main", "tools/check_cert.c: main, parse_check_opt"]}
{"id": "C70", "title": "Sizes printed in messages are right and fit in 8 bytes", "statement": "spasm_human_format writes at most 7 characters and a NUL. They stand for n itself below 1000, and for a multiple of one tenth of the unit (k, m, g, t) nearest to n otherwise, although the quotient is computed in floating point. A larger size is never printed as a smaller one.", "quantifier": "every 64-bit integer", "why_tests_cant": "10^15 sizes; the interesting ones are those near a tie or near the next unit (999950 is printed 1000.0k, which fills the buffer)", "anchors": ["src/spasm_util.c: spasm_human_format"]}
{"id": "C71", "title": "Pictures have the number of pixels asked for and the proportions of the matrix", "statement": "With --mpixels=k (1 by default) the picture of bitmap, and with --image=k that of dm, has at most k million pixels, more than that if one row and one column were added, and the proportions of the matrix up to rounding; it has at least one row and one column. The computation in floating point never overflows.", "quantifier": "every matrix, every k from 1 to 2000", "why_tests_cant": "the dimensions are computed by a square root and conversions in floating point, for 2^62 possible sizes of matrices; pictures of very thin matrices are not tried", "anchors": ["tools/bitmap.c: main", "tools/dm.c: main", "src/spasm_io.c: spasm_save_pnm"]}
{"id": "C72", "title": "Permutations of dense factorisations are lists of rows and columns", "statement": "spasm_ffpack_rref and spasm_ffpack_LU return the permutation of the columns (and of the rows) as an array that lists each index once, such that the matrix whose columns (and rows) are taken in that order is the one that the dense library factored; nothing is written beyond the first m (n) cells of the arrays of the caller.", "quantifier": "every matrix, every sequence of exchanges that the library may return, any contents and any sufficient length of the arrays of the caller", "why_tests_cant": "most small permutations are their own inverse, and an array and its inverse give the same result on them", "anchors": ["src/spasm_ffpack.cpp: ffpack_rref", "src/spasm_ffpack.cpp: ffpack_LU"]}
{"id": "C73", "title": "Arrays trimmed to zero cells", "statement": "It does not matter whether realloc(ptr, 0) returns NULL, as the GNU C library does, or an array without cells: spasm_echelonize returns the same result, and entries can be added to a matrix that has been loaded, whether it has entries or not.", "quantifier": "every matrix, every set of options, every block size; every file", "why_tests_cant": "it takes a matrix whose first block of rows is empty and no structural elimination, or a file without entries that is modified after it has been loaded; another C library gives another result", "anchors": ["src/spasm_util.c: spasm_csr_realloc", "src/spasm_util.c: spasm_triplet_realloc", "src/spasm_echelonize.c: update_U_after_rref", "src/spasm_echelonize.c: update_fact_after_LU", "src/spasm_io.c: spasm_triplet_load"]}
{"id": "C74", "title": "Matrices with 2^31 entries or more", "statement": "Row pointers and numbers of entries are 64-bit integers, so that matrices may have 2^31 entries or more; spasm_compress, spasm_kernel_from_rref and spasm_strongly_connected_components meet their specifications on them as on the others.", "quantifier": "every matrix, including those with 2^31 entries or more", "why_tests_cant": "a test would need matrices of 20 gigabytes", "anchors": ["src/spasm_triplet.c: spasm_compress", "src/spasm_kernel.c: spasm_kernel_from_rref", "src/spasm_scc.c: spasm_strongly_connected_components"]}
{"id": "C75", "title": "Sizes of the arrays", "statement": "Every array that the library allocates has as many bytes as the cells that the algorithms use, and every number of entries that is reserved is the one that they rely on: the computation of these sizes, partly in 32-bit integers, does not overflow.", "quantifier": "every dimensions, ranks, block sizes and numbers of entries of their types; every allocation in src/", "why_tests_cant": "the limits are reached with hundreds of millions of columns, and a workspace that is too small is not detected", "anchors": ["src/spasm_util.c: spasm_csr_alloc", "src/spasm_util.c: spasm_triplet_alloc", "src/spasm_util.c: spasm_dm_alloc", "src/spasm_schur.c: spasm_schur", "src/spasm_rref.c: spasm_rref", "src/spasm_echelonize.c: update_fact_after_LU", "src/spasm_echelonize.c: echelonize_dense", "src/spasm_io.c: spasm_save_pnm"]}
{"id": "C76", "title": "Lifetimes of the blocks of memory", "statement": "Every function of the library, and every tool, uses and frees only blocks of memory that are live, whichever arrays realloc moved; it leaves its operands live, and when it returns the only other live blocks are those of its result.", "quantifier": "every number of threads, every sequence of rounds of elimination and of enlargements of the arrays, every set of other live blocks", "why_tests_cant": "a block used after it was moved is usually still readable, and a block that is lost shows nothing until memory runs out", "anchors": ["src/spasm_echelonize.c: spasm_echelonize", "src/spasm_schur.c: spasm_schur", "src/spasm_kernel.c: spasm_kernel", "src/spasm_rref.c: spasm_rref", "src/spasm_solve.c: spasm_gesv", "src/spasm_certificate.c: spasm_certificate_rank_create", "src/spasm_scc.c: spasm_strongly_connected_components", "src/spasm_dm.c: spasm_dulmage_mendelsohn", "src/spasm_triplet.c: spasm_compress", "tools/rank.c: main"]}
{"id": "C77", "title": "Loading any sequence of bytes", "statement": "Whatever the bytes of a file, spasm_triplet_load ends, with a matrix or a message, and accesses no memory outside of its arrays.", "quantifier": "every sequence of bytes, every announced dimensions and number of entries", "why_tests_cant": "the sizes that wrap around are announced by one number out of 2^32, and a heap that is overwritten may go unnoticed", "anchors": ["src/spasm_io.c: spasm_triplet_load", "src/spasm_io.c: read_line", "src/spasm_io.c: validate_mm_header", "src/spasm_util.c: spasm_triplet_alloc", "src/spasm_util.c: spasm_triplet_realloc", "src/spasm_triplet.c: spasm_add_entry"]}
{"id": "C78", "title": "The tools on any sequence of bytes", "statement": "Whatever the bytes of their input, transpose, vertical_swap and stack end, with a matrix or a message, and access no memory outside of their arrays, nor do the tools that start by loading and compressing a matrix while they do so.", "quantifier": "every sequence of bytes, every announced dimensions (negative ones included), every amount of memory", "why_tests_cant": "negative dimensions are not tried, and one cell written after a block of size 0 goes unnoticed", "anchors": ["src/spasm_triplet.c: spasm_compress", "src/spasm_triplet.c: deduplicate", "src/spasm_util.c: spasm_csr_alloc", "src/spasm_transpose.c: spasm_transpose", "tools/transpose.c: main", "tools/vertical_swap.c: main", "tools/stack.c: main", "tools/common.c: load_input_matrix"]}
{"id": "C79", "title": "The tools on files whose entries cancel", "statement": "When several entries of a file are at the same position and their sum vanishes, the tools answer as if this position were absent: rank (and its certificate), kernel, solve, echelonize, dm and transpose are right.", "quantifier": "every file of a matrix, whatever the number of entries at each position", "why_tests_cant": "random test matrices have no duplicate position, let alone one whose entries cancel modulo p", "anchors": ["src/spasm_triplet.c: remove_explicit_zeroes", "src/spasm_triplet.c: spasm_compress", "tools/rank.c: main", "tools/kernel.c: main", "tools/solve.c: main", "tools/echelonize.c: main", "tools/dm.c: main", "tools/transpose.c: main"]}
{"id": "C80", "title": "The tools that echelonize, on any sequence of bytes", "statement": "Whatever the bytes given to rank, kernel and echelonize, the program either stops on a failed check (assertion, allocation, number too large for its type) or gives a right answer for the matrix that the bytes describe: the entries read one per line, with the announced dimensions enlarged so that they contain the entries that are not zero modulo p. No block of memory is accessed outside its bounds.", "quantifier": "every sequence of bytes", "why_tests_cant": "tests use files written by the same library, whose dimensions are right; a fuzzer sees crashes, not wrong ranks", "anchors": ["src/spasm_io.c: spasm_triplet_load", "src/spasm_triplet.c: spasm_add_entry", "src/spasm_triplet.c: spasm_compress", "src/spasm_util.c: spasm_csr_alloc", "tools/rank.c: main", "tools/kernel.c: main", "tools/echelonize.c: main"]}
{"id": "C81", "title": "The tools solve and dm, on any sequence of bytes", "statement": "Whatever the bytes given to solve (for both files) and to dm, the program either stops on a failed check (assertion, allocation, number too large for its type) or gives a right answer for the matrices that the bytes describe, with the announced dimensions enlarged so that they contain the entries that are not zero modulo p. No block of memory is accessed outside its bounds.", "quantifier": "every sequence of bytes", "why_tests_cant": "tests of solve use right-hand sides with as many columns as the matrix; the random matrices of the tests have the announced dimensions", "anchors": ["src/spasm_io.c: spasm_triplet_load", "src/spasm_triplet.c: spasm_compress", "src/spasm_solve.c: spasm_solve", "src/spasm_solve.c: spasm_gesv", "src/spasm_dm.c: spasm_dulmage_mendelsohn", "tools/solve.c: main", "tools/dm.c: main"]}
{"id": "C82", "title": "Certificates on any sequence of bytes", "statement": "Whatever the bytes given to spasm_rank_certificate_load, the arrays of the certificate have as many cells as its rank says and nothing is written outside of them. check_cert, on any two sequences of bytes, either stops on a failed check or verifies the certificate that was read for the matrix that was read; an accepted certificate carries the hash of the file and the modulus, and its rows and columns are those of the matrix.", "quantifier": "every two sequences of bytes, every modulus", "why_tests_cant": "the tests verify certificates that the library has just written", "anchors": ["src/spasm_certificate.c: spasm_rank_certificate_load", "src/spasm_certificate.c: spasm_certificate_rank_verify", "tools/check_cert.c: main"]}
{"id": "C83", "title": "Pictures on any sequence of bytes", "statement": "Whatever bytes they are given, bitmap and dm --image either stop on a failed check, or write the picture of the matrix that was read: the rows and columns announced, or more if an entry lies outside, and the entries of the beginning of the file up to the end marker. Nothing is read or written outside of the blocks of memory.", "quantifier": "every sequence of bytes, pictures with less than 2^31 pixels", "why_tests_cant": "there is no test of these tools", "anchors": ["src/spasm_io.c: spasm_save_pnm", "src/spasm_triplet.c: spasm_compress", "tools/bitmap.c: main", "tools/dm.c: main"]}
