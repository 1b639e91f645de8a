{
 "claims": [
  {
   "property": "C01",
   "status": "proved",
   "theorems": [
    "C01_init_canonical",
    "C01_canonical_unique"
   ],
   "note": ""
  },
  {
   "property": "C02",
   "status": "proved",
   "theorems": [
    "C02_add_exact",
    "C02_sub_exact"
   ],
   "note": ""
  },
  {
   "property": "C03",
   "status": "proved",
   "theorems": [
    "C03_mul_exact",
    "C03_model_mul"
   ],
   "note": ""
  },
  {
   "property": "C04",
   "status": "proved",
   "theorems": [
    "C04_axpy_exact",
    "C04_axpy_any",
    "C04_model_axpy",
    "C04_model_axpy_any"
   ],
   "note": "The operand a and y may moreover be any integers of 32 bits (C04_axpy_any)."
  },
  {
   "property": "C05",
   "status": "proved",
   "theorems": [
    "C05_inverse_exact",
    "C05_model_inverse"
   ],
   "note": ""
  },
  {
   "property": "C06",
   "status": "partial",
   "theorems": [
    "C06_compress_partial",
    "C06_compress_pattern",
    "C06_compress_safe",
    "C06_compress_refuted",
    "C06_compress_rows",
    "C06_compress_first_rows"
   ],
   "note": "False as stated: remove_explicit_zeroes re-reads stale entries after a cancellation (C06_compress_refuted). Proved when no position has triplets summing to zero, unconditionally for pattern matrices, memory safety in all cases; C06_compress_rows tells exactly what is computed and C06_compress_first_rows that the rows are right up to the first one with a cancellation, included."
  },
  {
   "property": "C07",
   "status": "proved",
   "theorems": [
    "C07_add_entry",
    "C07_fill"
   ],
   "note": ""
  },
  {
   "property": "C08",
   "status": "proved",
   "theorems": [
    "C08_transpose",
    "C08_transpose_twice"
   ],
   "note": ""
  },
  {
   "property": "C09",
   "status": "proved",
   "theorems": [
    "C09_permute"
   ],
   "note": ""
  },
  {
   "property": "C10",
   "status": "partial",
   "theorems": [
    "C10_submatrix",
    "C10_reversed_rows_refuted"
   ],
   "note": "The clause on reversed ranges is false for rows: every such call writes out of bounds (C10_reversed_rows_refuted). The rest is proved."
  },
  {
   "property": "C11",
   "status": "proved",
   "theorems": [
    "C11_pvec",
    "C11_ipvec",
    "C11_pinv",
    "C11_range_pvec"
   ],
   "note": ""
  },
  {
   "property": "C12",
   "status": "proved",
   "theorems": [
    "C12_random_permutation"
   ],
   "note": ""
  },
  {
   "property": "C13",
   "status": "proved",
   "theorems": [
    "C13_scatter",
    "C13_xApy",
    "C13_Axpy"
   ],
   "note": ""
  },
  {
   "property": "C46",
   "status": "proved",
   "theorems": [
    "C46_realloc",
    "C46_resize"
   ],
   "note": ""
  },
  {
   "property": "C14",
   "status": "proved",
   "theorems": [
    "C14_reach"
   ],
   "note": "Termination (fuel never runs out), memory safety and exactness of the reached set for every pivot map."
  },
  {
   "property": "C15",
   "status": "proved",
   "theorems": [
    "C15_topological",
    "C15_dfs",
    "C15_upper_acyclic"
   ],
   "note": "Topological order for every cycle-free pivot map, for spasm_reach and for a single spasm_dfs."
  },
  {
   "property": "C16",
   "status": "proved",
   "theorems": [
    "C16_sparse_triangular_solve"
   ],
   "note": ""
  },
  {
   "property": "C17",
   "status": "proved",
   "theorems": [
    "C17_dense_forward_solve"
   ],
   "note": ""
  },
  {
   "property": "C18",
   "status": "partial",
   "theorems": [
    "C18_dense_back_solve_partial",
    "C18_duplicates_refuted"
   ],
   "note": "Proved for rows of L without duplicates. False otherwise, since the C code uses the first diagonal entry it meets (C18_duplicates_refuted)."
  },
  {
   "property": "C19",
   "status": "proved",
   "theorems": [
    "C19_solve"
   ],
   "note": ""
  },
  {
   "property": "C24",
   "status": "proved",
   "theorems": [
    "C24_schur"
   ],
   "note": "For every schedule, initial capacity and content of the scratch space."
  },
  {
   "property": "C25",
   "status": "proved",
   "theorems": [
    "C25_protocol",
    "C25_rows",
    "C25_schur",
    "C25_rref",
    "C25_kernel"
   ],
   "note": "Small-step interleaving semantics, one task per loop iteration, sequentially consistent memory (justified by the absence of races). Progress messages are not modelled."
  },
  {
   "property": "C30",
   "status": "partial",
   "theorems": [
    "C30_rref_partial",
    "C30_rref_all",
    "C30_rref_refuted"
   ],
   "note": "Proved under the bound r*(m-r+1) < 2^31 on the size of the result, since rref.c:137 stores row pointers in an int. False beyond: C30_rref_all (every matrix whose columns without pivot are full, whatever the schedule), C30_rref_refuted."
  },
  {
   "property": "C31",
   "status": "proved",
   "theorems": [
    "C31_kernel"
   ],
   "note": "Values are reduced for p >= 3 (the code stores -1, not canonical when p = 2)."
  },
  {
   "property": "C32",
   "status": "partial",
   "theorems": [
    "C32_kernel_from_rref_partial",
    "C32_kernel_from_rref_refuted"
   ],
   "note": "False for moduli above 2^31: the value p-1 is stored in a 32-bit integer without normalisation (witness with p = 4294967291). Proved for p <= 2^31 and less than 2^31 entries, including spanning."
  },
  {
   "property": "C21",
   "status": "proved",
   "theorems": [
    "C21_pivots_find",
    "C21_greedy_schedules",
    "C21_leftmost",
    "C21_register"
   ],
   "note": "Faugere-Lachartre, column variant and greedy search; the greedy search is proved for every interleaving of the threads' accesses to shared memory (one atomic step per access), for rows without duplicates and without explicit zeroes."
  },
  {
   "property": "C22",
   "status": "proved",
   "theorems": [
    "C22_topological_order"
   ],
   "note": "Depth-first search over all pivotal columns; assertions never fire, every row exactly once, pivotal rows first and upper-triangular."
  },
  {
   "property": "C23",
   "status": "proved",
   "theorems": [
    "C23_extract_structural"
   ],
   "note": "Includes the pivot search and the ordering; any previous state of U and L such that the rows of A have no entry on the pivotal columns of U."
  },
  {
   "property": "C20",
   "status": "proved",
   "theorems": [
    "C20_gesv",
    "C20_schedules"
   ],
   "note": "Every interleaving of the atomic captures and of the three writes of each entry; the solutions do not depend on the schedule. Hypothesis: a complete factorization (its row space contains the rows of A)."
  },
  {
   "property": "C26",
   "status": "partial",
   "theorems": [
    "C26_gplu_partial",
    "C26_gplu_schur",
    "C28_gplu_refuted"
   ],
   "note": "From an empty factorization and, with the general invariant, from any Schur complement. Without L the claim needs an honest completion test (hypothesis) and, in the general form, that A is the original matrix: the early exit is wrong otherwise (see C28_gplu_refuted)."
  },
  {
   "property": "C27",
   "status": "partial",
   "theorems": [
    "C27_soundness",
    "C27_rank",
    "C27_nan_refuted"
   ],
   "note": "Proved for every option, schedule, random draw and density estimate, with these exclusions: L without complete in the dense finisher after a first round (out of bounds, C48_pivotal_refuted); failures are characterised (non-termination and overflow of the low-rank mode; NaN converted to an integer when every column has a pivot, C27_nan_refuted). FFPACK is assumed to meet DenseSpec.v."
  },
  {
   "property": "C28",
   "status": "partial",
   "theorems": [
    "C28_rank_partial",
    "C28_gplu_refuted",
    "C28_lowrank_refuted",
    "C28_rank_ub_refuted",
    "C28_termination_refuted",
    "C28_completion_test"
   ],
   "note": "False in general, with four witnesses. Proved when L is requested, or when the remaining rows are handled by the dense finisher, or by GPLU on the original matrix when the completion test is not fooled; not in low-rank mode. C28_completion_test bounds how often it is fooled: one sequence of draws in p^Sn, with Sn combinations."
  },
  {
   "property": "C29",
   "status": "partial",
   "theorems": [
    "C29_LU_partial",
    "C48_pivotal_refuted",
    "C27_nan_refuted"
   ],
   "note": "For the same options as C27. A = LU on the pivotal rows always, on every row with complete; factors (used by the solvers) as soon as a finisher is enabled."
  },
  {
   "property": "C48",
   "status": "partial",
   "theorems": [
    "C48_update_U",
    "C48_update_fact",
    "C48_dense_partial",
    "C48_pivotal_refuted"
   ],
   "note": "False (out of bounds write) when L is requested without complete after a first round; proved otherwise."
  },
  {
   "property": "C49",
   "status": "proved",
   "theorems": [
    "C49_kernel"
   ],
   "note": ""
  },
  {
   "property": "C33",
   "status": "proved",
   "theorems": [
    "C33_matching",
    "C33_size"
   ],
   "note": "Maximality is proved against every matching of the pattern, through a closed set of rows (Koenig certificate) kept by the search."
  },
  {
   "property": "C47",
   "status": "partial",
   "theorems": [
    "C47_permute",
    "C47_submatching_partial",
    "C47_submatching_refuted",
    "C47_submatching_result"
   ],
   "note": "Submatching only when the rows and columns of the submatrix are matched together; its bound test is wrong otherwise (refuted)."
  },
  {
   "property": "C34",
   "status": "proved",
   "theorems": [
    "C34_scc"
   ],
   "note": "The whole iterative Tarjan search is modelled; blocks are exactly the strongly connected components and the permuted matrix is block upper triangular. 32-bit positions are assumed to fit."
  },
  {
   "property": "C35",
   "status": "proved",
   "theorems": [
    "C35_dm",
    "C35_no_square_refuted"
   ],
   "note": "Coarse decomposition from both searches, sizes, zero-free diagonals, block triangular form, maximality, and irreducible fine blocks. When the square part is empty the function returns no fine block and leaves marks in r and c (C35_no_square_refuted)."
  },
  {
   "property": "C36",
   "status": "proved",
   "theorems": [
    "C36_sha256"
   ],
   "note": "The specification computes the constants of FIPS 180-4 from the square and cube roots of the first primes. Little-endian machines; lengths below 2^61 bytes."
  },
  {
   "property": "C37",
   "status": "partial",
   "theorems": [
    "C37_stream",
    "C37_simple",
    "C37_blocks",
    "C37_field",
    "C37_unbiased",
    "C37_counter_refuted"
   ],
   "note": "Proved for all seeds and moduli up to 2^34 - 8 words per seeding; beyond that the int counter overflows (C37_counter_refuted). The number of rejected words depends on SHA-256, so that the loop is bounded by fuel."
  },
  {
   "property": "C41",
   "status": "proved",
   "theorems": [
    "C41_complete"
   ],
   "note": "Whole creation and verification, from the hash to the answer; also that the certified number is the rank. The only failures are those of the generator: its rejection loop is bounded by fuel and its counter may overflow (see C37)."
  },
  {
   "property": "C42",
   "status": "partial",
   "theorems": [
    "C42_sound_refuted",
    "C42_forgery_refuted",
    "C42_too_large_partial",
    "C42_too_small_partial",
    "C42_challenge",
    "C42_hyperplane"
   ],
   "note": "False: the challenge does not depend on the committed rows and columns, so that certificates can be forged after the challenge is known (witness, and a general forgery). Proved: for rows and columns fixed in advance, a wrong claim in either direction is accepted only for challenges in a fixed hyperplane, which holds one vector in p."
  },
  {
   "property": "C44",
   "status": "proved",
   "theorems": [
    "C44_accepts",
    "C44_answer",
    "C44_wrong",
    "C44_rank_refuted"
   ],
   "note": "Correct factorizations are accepted for every seed; the answer is characterised; rows without pivot are not checked, so that a U of too small rank is accepted (C44_rank_refuted)."
  },
  {
   "property": "C38",
   "status": "proved",
   "theorems": [
    "C38_csr",
    "C38_triplet",
    "C38_values",
    "C38_pattern"
   ],
   "note": "byte-level model of the text written and read; the library's text functions are modelled in Stdio.v"
  },
  {
   "property": "C39",
   "status": "proved",
   "theorems": [
    "C39_hash",
    "C39_whole",
    "C39_nul_refuted"
   ],
   "note": "every accepted file: the hash is that of the bytes before the first NUL, hence of the whole file without NUL; with a NUL in the last line it is not (refuted part)"
  },
  {
   "property": "C40",
   "status": "partial",
   "theorems": [
    "C40_load_partial",
    "C40_empty",
    "C40_empty_refuted"
   ],
   "note": "holds for nnz > 0; files with no entry are always rejected (refuted)"
  },
  {
   "property": "C50",
   "status": "proved",
   "theorems": [
    "C50_sms",
    "C50_type"
   ],
   "note": ""
  },
  {
   "property": "C51",
   "status": "proved",
   "theorems": [
    "C51_sms",
    "C51_mm"
   ],
   "note": ""
  },
  {
   "property": "C43",
   "status": "partial",
   "theorems": [
    "C43_reload_partial",
    "C43_reload_refuted",
    "C43_never_refuted"
   ],
   "note": "False of the code: spasm_rank_certificate_load reads the column indices into proof->i and leaves proof->j uninitialised. Proved: everything else comes back (r, prime, hash, x, y), i receives the columns; witness of an accepted certificate that is rejected after the round trip; a certificate whose rows and columns differ never comes back."
  },
  {
   "property": "C45",
   "status": "proved",
   "theorems": [
    "C45_roundtrip",
    "C45_gather",
    "C45_integers"
   ],
   "note": "float and double are Flocq's binary32/binary64; also for the rows written by gather (spasm_schur.c)"
  },
  {
   "property": "C52",
   "status": "proved",
   "theorems": [
    "C52_exact",
    "C52_sharp"
   ],
   "note": "a*x+y of balanced representatives is held exactly by the chosen type, and would not be by the smaller one"
  },
  {
   "property": "C53",
   "status": "proved",
   "theorems": [
    "C53_transpose"
   ],
   "note": "from the bytes of the input to the bytes of the output"
  },
  {
   "property": "C54",
   "status": "proved",
   "theorems": [
    "C54_vertical_swap"
   ],
   "note": "from the bytes of the input to the bytes of the output; despite its name the tool reverses the columns"
  },
  {
   "property": "C55",
   "status": "proved",
   "theorems": [
    "C55_stack"
   ],
   "note": "from the bytes of the input to the bytes of the output; below 2^31 entries because the tool keeps their number in an int"
  },
  {
   "property": "C57",
   "status": "partial",
   "theorems": [
    "C57_rank",
    "C57_rank_defined",
    "C57_certificate_partial",
    "C57_dense_refuted",
    "C57_transposed_refuted"
   ],
   "note": "From the bytes of the input. The certificate is accepted for the matrix that was eliminated; a wide matrix is transposed before, so that its certificate, with the hash of the file, is that of another matrix (C57_transposed_refuted); with the dense options the tool reads out of bounds (C57_dense_refuted). FFPACK is assumed to meet DenseSpec.v."
  },
  {
   "property": "C58",
   "status": "partial",
   "theorems": [
    "C58_message_partial",
    "C58_wrong_refuted",
    "C58_valid_refuted",
    "C58_empty_refuted"
   ],
   "note": "False: the message and the exit code are the opposite of the answer, and the result of loading the certificate is ignored. Proved: exactly what the tool prints for every saved certificate, that every certificate of another file is found correct, and that an empty file is."
  },
  {
   "property": "C59",
   "status": "partial",
   "theorems": [
    "C59_kernel_partial",
    "C79_kernel_refuted"
   ],
   "note": "Proved when the entries of the file at a same position do not cancel; false otherwise (C79_kernel_refuted). From the bytes of the input to those of the output; modulo 2 the values are -1, which the balanced representatives exclude. Same exclusions of options as C27."
  },
  {
   "property": "C60",
   "status": "partial",
   "theorems": [
    "C60_solve_partial",
    "C60_columns",
    "C60_narrow_refuted",
    "C60_wide_refuted"
   ],
   "note": "Proved when B has as many columns as A. The tool does not check it: a narrower B with at least one row always leads to a read out of bounds, and the extra columns of a wider B are ignored (C60_columns)."
  },
  {
   "property": "C61",
   "status": "partial",
   "theorems": [
    "C61_echelonize_partial",
    "C79_echelonize_refuted"
   ],
   "note": "Proved when the entries of the file at a same position do not cancel (false otherwise, C79_echelonize_refuted) and, with --rref, under the bound of C30. From the bytes of the input to those of the output; without --rref explicit zeroes are written. Same exclusions of options as C27."
  },
  {
   "property": "C62",
   "status": "partial",
   "theorems": [
    "C62_dm_partial",
    "C62_report_partial",
    "C79_dm_refuted"
   ],
   "note": "Proved when the entries of the file at a same position do not cancel; false otherwise (C79_dm_refuted). From the bytes of the input to those of the output, for the permuted matrix and for the verbose mode. The sum rr[2] + cc[4] of the verbose mode overflows from 2^31 on: this outcome is part of the statement."
  },
  {
   "property": "C56",
   "status": "partial",
   "theorems": [
    "C56_bw",
    "C56_gray_partial",
    "C56_tool_partial",
    "C56_tool_default_partial",
    "C56_tool_height",
    "C56_tool_width",
    "C56_exclusive",
    "C56_size_refuted",
    "C56_no_entry_refuted",
    "C56_zero_refuted"
   ],
   "note": "Proved when both dimensions or none of them are given, and with one of them not smaller than that of the matrix. False otherwise: with only --height smaller than the number of rows (or --width, of columns) the other dimension is 0 and the entries are counted out of bounds; the gray levels of a matrix without entries are 0/0, caught by an assertion; --mpixels=0 gives an image of negative dimensions. The level computed with exp and log is an oracle."
  },
  {
   "property": "C63",
   "status": "partial",
   "theorems": [
    "C63_image_partial"
   ],
   "note": "Proved when the entries of the file at a same position do not cancel (otherwise the matrix that is drawn is that of C79). From the bytes of the input to those of the image. The dimensions computed in floating-point arithmetic are an argument."
  },
  {
   "property": "C64",
   "status": "proved",
   "theorems": [
    "C64_maximal",
    "C64_progress",
    "C21_greedy_schedules"
   ],
   "note": "For every interleaving of the accesses of the threads to shared data."
  },
  {
   "property": "C65",
   "status": "proved",
   "theorems": [
    "C65_accepted",
    "C65_unique",
    "C65_dimensions_refuted"
   ],
   "note": "Numbers may be followed by other characters and need not be separated if a sign separates them. The sign of the dimensions is not checked: a file announcing -2 rows is accepted."
  },
  {
   "property": "C66",
   "status": "partial",
   "theorems": [
    "C66_sms",
    "C66_csr",
    "C66_triplet",
    "C66_mm_partial",
    "C66_mm_refuted"
   ],
   "note": "Proved for SMS files, hence for saved files. False of MatrixMarket files: cut inside the last value, 15, the file is accepted with the value 1; proved for those cut at the end of a line."
  },
  {
   "property": "C67",
   "status": "proved",
   "theorems": [
    "C67_parts",
    "C67_sizes"
   ],
   "note": "The parts are described by the largest transversals (SpecParts.v), independently of any matching. The number of blocks is not compared between two matrices of the same pattern, the blocks are those of C67_parts."
  },
  {
   "property": "C68",
   "status": "partial",
   "theorems": [
    "C68_rank_options",
    "C68_kernel_options",
    "C68_solve_options",
    "C68_rank",
    "C68_certificate",
    "C68_kernel",
    "C68_solve",
    "C68_numbers_refuted",
    "C68_certificate_refuted",
    "C68_solve_refuted",
    "C68_block_refuted"
   ],
   "note": "The options are proved in full, for integers that fit. The programs: rank --certificate and solve are proved with --no-dense-mode; with the default options they access memory outside of an array (C68_certificate_refuted, C68_solve_refuted). kernel is proved with --no-low-rank-mode and thresholds that select the dense elimination; the other modes stop on a probabilistic test. A block size of 0 makes an assertion fail. argp is a parameter of the model: it hands over the options in order; the thresholds are oracles."
  },
  {
   "property": "C69",
   "status": "partial",
   "theorems": [
    "C69_echelonize_options",
    "C69_dm_options",
    "C69_bitmap_options",
    "C69_check_options",
    "C69_echelonize",
    "C69_dm",
    "C69_dm_verbose",
    "C69_dm_image",
    "C69_dm_tabulated_refuted",
    "C69_bitmap",
    "C69_bitmap_pixels",
    "C69_check",
    "C69_check_refuted",
    "C69_modulus_refuted"
   ],
   "note": "The options are proved in full, for integers that fit in an int; --modulus=4294967291, a prime that the library accepts, does not (C69_modulus_refuted). The programs: echelonize writes the whole row space with --no-low-rank-mode and thresholds that select the dense elimination; the other modes stop on a probabilistic test. dm --tabulated prints nothing; check_cert says that the certificate of another file is correct (C58). Numbers read by atof are oracles."
  },
  {
   "property": "C70",
   "status": "partial",
   "theorems": [
    "C70_human",
    "C70_order",
    "C70_large_refuted",
    "C70_negative_refuted"
   ],
   "note": "Proved in binary64 for all sizes up to 10^15 (excluded); from there on nothing is written in the buffer, which is then printed (a MatrixMarket header may announce that many entries), and negative numbers of 7 digits are cut. printf is taken to round exactly, as in the GNU C library."
  },
  {
   "property": "C71",
   "status": "partial",
   "theorems": [
    "C71_size",
    "C71_bitmap_partial",
    "C71_dm_partial",
    "C71_thin",
    "C71_thin_refuted",
    "C71_boundary_refuted",
    "C71_empty_refuted"
   ],
   "note": "Proved in binary64 for 1 to 2000 millions of pixels. False of matrices with more than a million rows per column (or columns per row), whose picture has no column: access outside of an array with the default options (C71_thin: all of them); false of matrices without rows or columns (division by zero). With exactly a million rows per column, rounding errors decide (C71_boundary_refuted: no column left for 65 million rows and 65 columns)."
  },
  {
   "property": "C72",
   "status": "proved",
   "theorems": [
    "C72_conversion",
    "C72_rref",
    "C72_LU",
    "C72_elimination",
    "C72_library"
   ],
   "note": "Relative to the contract of FFPACK's own routines stated with sequences of exchanges (SpecFfpack.v), which C72_library shows can be met on every matrix; LAPACKPerm2MathPerm belongs to the library and is modelled after its description. C72_elimination: the contract assumed by the elimination theorems follows."
  },
  {
   "property": "C73",
   "status": "partial",
   "theorems": [
    "C73_elimination_partial",
    "C73_elimination_refuted",
    "C73_load_partial",
    "C73_add_refuted"
   ],
   "note": "Proved of spasm_echelonize when at least one structural elimination is allowed (the default is 3) or the dense finishers are disabled, for a dense library whose ranks are at most the dimensions. False with --max-iterations=0: if the first block of rows is zero, the array of the values of U is NULL from then on, and it is dereferenced at the next pivot. After loading an SMS file without entries, the values of the entries that are added are lost."
  },
  {
   "property": "C74",
   "status": "partial",
   "theorems": [
    "C74_compress_partial",
    "C74_compress_values",
    "C74_compress_all",
    "C74_compress_refuted",
    "C74_kernel_all",
    "C74_kernel_refuted",
    "C74_scc_partial",
    "C74_scc_all",
    "C74_scc_refuted"
   ],
   "note": "Proved below 2^31 entries. From there on, false of all three: spasm_compress (its first loop counts the triplets with an int: C74_compress_all, every matrix), spasm_kernel_from_rref (the position of the pivot of a row is truncated: C74_kernel_all, every matrix where it is between 2^31 and 2^32), spasm_strongly_connected_components (int p = Ap[j] + px: C74_scc_all, C74_scc_refuted). spasm_rref has the same truncation (C30_rref_all)."
  },
  {
   "property": "C75",
   "status": "partial",
   "theorems": [
    "C75_bytes_partial",
    "C75_entries_partial",
    "C75_workspace_all",
    "C75_workspace_refuted",
    "C75_rows_refuted",
    "C75_picture_refuted",
    "C75_dense_refuted"
   ],
   "note": "Proved up to 715827882 rows and columns, 2^30 rows in a block, 2^60 entries and pictures with less than 2^31 pixels. False beyond: 3 * m overflows for every matrix with 715827883 columns or more (C75_workspace_all), n + 1 with 2^31 - 1 rows, x * y for pictures with 2^31 pixels, 2 * Sm with 2^30 columns."
  },
  {
   "property": "C76",
   "status": "partial",
   "theorems": [
    "C76_matrices",
    "C76_echelonize",
    "C76_echelonize_L",
    "C76_lu_free",
    "C76_kernel",
    "C76_kernel_from_rref",
    "C76_rref",
    "C76_solve",
    "C76_gesv",
    "C76_certificate",
    "C76_verify",
    "C76_scc_all",
    "C76_scc_refuted",
    "C76_dm_all",
    "C76_dm_refuted",
    "C76_matching",
    "C76_programs",
    "C76_rank_all",
    "C76_programs_partial"
   ],
   "note": "No block is used or freed after it was freed, anywhere. Blocks are lost by the strongly connected components (1), the Dulmage-Mendelsohn decomposition (2 or 4) and rank --certificate (5): proved exactly, hence the refuted parts. The tools kernel, solve and dm end without freeing everything, they are only proved safe (C76_programs_partial). Loops and decisions are arguments of the model."
  },
  {
   "property": "C77",
   "status": "partial",
   "theorems": [
    "C77_bytes",
    "C77_same",
    "C77_load_partial",
    "C77_wraps_all",
    "C77_wraps_refuted"
   ],
   "note": "Proved of every file without NUL that does not announce 2^61 entries or more (C77_bytes: with NULs too, apart from the sizes of the arrays). False otherwise: nnz * sizeof(int) wraps around, so a header that announces 2^62 + k entries, or a negative number, gives arrays of k cells, and entry k + 1 is written outside (C77_wraps_all). Numbers that do not fit in the type that scanf reads are the outcome Overflow, not excluded."
  },
  {
   "property": "C78",
   "status": "partial",
   "theorems": [
    "C78_csr_partial",
    "C78_oob",
    "C78_transpose_partial",
    "C78_swap",
    "C78_stack",
    "C78_same",
    "C78_transpose_refuted"
   ],
   "note": "Proved of vertical_swap and stack; of transpose, and of loading then compressing, unless the file announces -1 rows and has no entry that is not zero modulo p. In this case, and in no other (C78_oob), spasm_csr_alloc asks for a block of 0 bytes and writes one cell in it. As in C77: no NUL, less than 2^61 entries announced, outcome Overflow not excluded. C78_same: on the file of a matrix, the tools are those of C53-C55, or they run out of memory."
  },
  {
   "property": "C79",
   "status": "partial",
   "theorems": [
    "C79_rank_partial",
    "C79_certificate_partial",
    "C79_kernel_partial",
    "C79_solve_partial",
    "C79_echelonize_partial",
    "C79_dm_partial",
    "C79_transpose_partial",
    "C79_loaded",
    "C79_rank_refuted",
    "C79_certificate_refuted",
    "C79_kernel_refuted",
    "C79_echelonize_refuted",
    "C79_solve_refuted",
    "C79_transpose_refuted",
    "C79_dm_refuted"
   ],
   "note": "False as stated, for every one of these tools: on a 3 x 3 file whose only row is (1 - 1, 1, 1), rank prints 2 (with a certificate found correct), kernel misses a vector, echelonize writes a row that is not in the row space, solve gives a solution that is none. Proved when only the last row of the compressed matrix has cancellations; in all cases the rows are right up to the first one with a cancellation, included (C79_loaded)."
  },
  {
   "property": "C80",
   "status": "partial",
   "theorems": [
    "C80_rank_partial",
    "C80_certificate_partial",
    "C80_kernel_partial",
    "C80_echelonize_partial",
    "C80_unique",
    "C80_rank_refuted",
    "C80_kernel_refuted"
   ],
   "note": "Proved unless the file announces -1 rows (columns, when the tool transposes) with no entry that is not zero modulo p: there a cell outside a block of 0 bytes is written (C80_rank_refuted, C80_kernel_refuted). As in C77: no NUL, less than 2^61 entries announced, outcome Overflow not excluded. No cancellation of the entries at a position (hypothesis quiet; false otherwise, C79), and for echelonize the bound on the entries of the reduced form as in C57. The tools solve and dm on any bytes: C81."
  },
  {
   "property": "C81",
   "status": "partial",
   "theorems": [
    "C81_dm_partial",
    "C81_report_partial",
    "C81_solve_partial",
    "C81_dm_refuted",
    "C81_narrow_refuted"
   ],
   "note": "Same exceptions and hypotheses as C80 (-1 rows, no cancellation, no NUL, less than 2^61 entries announced, Overflow not excluded). For solve, moreover: when the right-hand side has less columns than the matrix and at least one row, the tool reads outside of a block (always: C81_solve_partial gives no answer in this case); when it has more, the answer is right for the first columns only."
  },
  {
   "property": "C82",
   "status": "partial",
   "theorems": [
    "C82_load_partial",
    "C82_same",
    "C82_load_refuted",
    "C82_check_partial",
    "C82_shape",
    "C82_negative",
    "C82_negative_refuted"
   ],
   "note": "Proved unless the file announces a rank r for which malloc(4 r) fails. The pointer is not checked: whatever malloc refuses, a short file makes the loader write behind a null pointer (C82_load_refuted). Same exceptions and hypotheses as C80 for the matrix; the uninitialised memory must not contain the hash of the file when the certificate cannot be read. A negative rank is handled as rank 0 (C82_negative), so that the zero matrix has an accepted certificate of rank -1 (C82_negative_refuted). The columns are never read (C43), so that they are indeterminate."
  },
  {
   "property": "C83",
   "status": "partial",
   "theorems": [
    "C83_bitmap_partial",
    "C83_bitmap_default_partial",
    "C83_dm_partial",
    "C83_bitmap_refuted",
    "C83_dm_refuted",
    "C83_dm_empty_refuted"
   ],
   "note": "Same exceptions and hypotheses as C80 (-1 rows and no entry, no NUL, less than 2^61 entries announced, Overflow not excluded; no cancellation, for dm). bitmap: any letter in the header, both dimensions given, or none of them; without rows or columns, nothing is said in the latter case (C71_empty_refuted). dm --image without rows or columns: division by zero, never a picture (C83_dm_partial, C83_dm_empty_refuted). A gray picture without entries has no pixel, or the tool stops."
  }
 ]
}