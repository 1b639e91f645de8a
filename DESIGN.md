# Formal model of SpaSM in Rocq: design

Subject: `cbouilla/spasm` (C library for sparse elimination modulo p), read as
text from `/repo`.  Nothing is extracted automatically from the C code: the
model in `rocq/theories` is a hand-written, function by function, transcription
into Gallina, each definition citing the C file and lines it follows.

## Trusted base

* Coq 8.16.1's kernel (and its VM for `vm_compute` in examples and witnesses).
* The axioms listed by `Print Assumptions` beside each theorem (see "Axioms").
* The fidelity of the transcription (files listed under "What is modelled").
* The specifications: `Spec*.v` and `DenseSpec.v` (`SpecFfpack.v`, `DenseSpec.v`: contract of FFLAS-FFPACK).

### Axioms

Most of the development is axiom-free ("Closed under the global context").  The
floating-point part (`ZZp.v`, `ZZpFloat.v`, `Datatype*.v`, `Human*.v`, `Image*.v`: C01-C05, C45, C52, C70, C71) goes
through Flocq, and hence through the standard library's reals:
`ClassicalDedekindReals.sig_forall_dec`, `ClassicalDedekindReals.sig_not_dec`,
`FunctionalExtensionality.functional_extensionality_dep`, `Classical_Prop.classic`.
These are the only axioms that appear.  Flocq has none of its own, and none is
declared in this development.  No kernel check is switched off.

## Modelling conventions

* A C function is a Gallina function in a result monad `res A := Ok a | Fail e`.
  `Fail` covers undefined behaviour (out of bounds access, signed overflow where
  modelled), a failed `assert`, and fuel exhaustion.  A theorem `sat (f ...) Q`
  therefore includes absence of out of bounds accesses, no failing assertion and
  termination.  `outs r Q F` says which failures are possible.
* Arrays are `list Z`; reads and writes are bounds-checked.  Memory obtained from
  `malloc` is not zero-initialised in C: its contents are an argument `g` over
  which theorems quantify.  Failure of `malloc` (the process exits) is not
  modelled; `malloc(0)` is a valid empty array.
* C `int`/`i64` are `Z`.  Wrap-around and overflow are modelled where a property
  depends on it (`spasm_ZZp.c`, the text files, the generator, `spasm_rref.c`,
  `spasm_kernel.c`); elsewhere sizes are assumed to fit.
* The library functions use `Zp.v`, the exact arithmetic on balanced
  representatives.  `C01`-`C05` prove that the C arithmetic, with its binary64
  quotient, computes it for every modulus `2 <= p <= 4294967291`.
* `for` loops are bounded iteration; `while`/`for(;;)` loops use fuel, with an
  `OutOfFuel` failure excluded by the theorem.
* Threads are interleaved at the granularity of atomic captures, critical
  sections and shared memory accesses (sequential consistency).  The greedy pivot
  search reads `qinv` outside its critical section: such reads are single steps.
* External inputs (`rand()`, the PRNG stream, density estimates, thresholds on
  floating-point ratios, the schedule, FFLAS-FFPACK results) are universally
  quantified arguments, possibly with an explicit hypothesis (`DenseSpec.v`).
* Text files are lists of bytes.  The C library functions used to read and print
  them (`fgets`, `sscanf`, `fprintf`, `tolower`) are modelled in `Stdio.v`;
  values that do not fit in the target of a `scanf` are undefined behaviour.
* SHA-256 and the generator are those of a little-endian machine.
* Progress messages are left out.

## What is modelled

| C source | model | proofs |
|----------|-------|--------|
| `spasm_ZZp.c` | `ZZp.v` (with binary64), `Zp.v` (exact) | `ZZpFacts.v`, `ZZpFloat.v`, `ZpFacts.v` |
| `spasm_triplet.c`, `spasm_transpose.c`, `spasm_permutation.c`, `spasm_submatrix.c`, `spasm_spmv.c`, `spasm_scatter.c`, allocation part of `spasm_util.c` | `Mat.v` | `MatFacts.v`, `CompressProofs.v`, `TransposeProofs.v`, `MatProofs.v`, `VecProofs.v` |
| `spasm_reach.c`, `spasm_triangular.c`, `spasm_solve.c` | `Reach.v`, `Solve.v`, `Gesv.v` | `ReachProofs.v`, `TriProofs.v`, `SolveProofs.v`, `GesvProofs.v`, `GesvNarrow.v` |
| `spasm_pivots.c` | `Pivots.v`, `Extract.v`, `Sched.v` | `PivotsProofs.v`, `GreedyProofs.v`, `ReorderProofs.v`, `ExtractProofs.v` |
| `spasm_schur.c` | `Schur.v`, `Append.v`, `Par.v`, `Dense.v` | `SchurProofs.v`, `AppendProofs.v`, `Par*.v`, `DenseProofs*.v` |
| `spasm_echelonize.c` | `Gplu.v`, `Dense.v`, `Echelonize.v` | `GpluProofs.v`, `DenseProofs*.v`, `Ech*.v` |
| `spasm_rref.c`, `spasm_kernel.c` | `Rref.v` | `RrefProofs.v`, `KernelProofs.v` |
| `spasm_matching.c`, `spasm_scc.c`, `spasm_dm.c` | `Matching.v`, `Scc.v`, `Dm.v` | `Match*.v`, `SccProofs.v`, `Dm*.v`, `PartsProofs.v` |
| `sha256.c`, `spasm_prng.c` | `Sha.v`, `Prng.v` | `Sha*.v`, `Prng*.v` |
| `spasm_certificate.c` | `Cert.v`, `CertIO.v` | `Cert*.v`, `CertIOProofs.v` |
| `spasm_io.c` | `IO.v`, `Stdio.v`, `Pnm.v` | `IO*.v`, `Text*.v`, `PnmProofs.v` |
| `spasm_ffpack.cpp` | `Ffpack.v`, `Datatype.v` | `FfpackProofs.v`, `FfpackRef.v`, `DatatypeProofs.v` |
| `spasm_util.c` (`spasm_human_format`) | `Human.v` | `HumanProofs.v` |
| `realloc(ptr, 0)` = NULL (elsewhere: an array without cells) | `Null.v` | `NullProofs.v` |
| entries counted in 32 bits (elsewhere: assumed to fit) | `Wide.v` | `WideProofs.v`, `RrefWideProofs.v` |
| sizes given to malloc and realloc | `Sizes.v` | `SizesProofs.v` |
| sizes of the arrays of entries when a file is loaded | `Header.v` | `HeaderProofs.v`, `IOSafe.v` |
| tools that rewrite a matrix, on any input | `AnyInput.v` | `AnyProofs.v` |
| rank, kernel and echelonize, on any input | `AnyElim.v` | `AnyElimProofs.v` |
| solve and dm, on any input | `AnySolve.v` | `AnySolveProofs.v` |
| certificates and check_cert, on any input | `AnyCert.v` | `AnyCertProofs.v` |
| bitmap and dm --image, on any input | `AnyImage.v` | `AnyImageProofs.v` |
| files whose entries cancel | | `CancelProofs.v` |
| blocks of memory: allocated, used, freed (library and tools) | `Lifetime.v` | `LifetimeBase.v`, `LifetimeElim.v`, `LifetimeProofs.v` |
| `tools/{transpose,vertical_swap,stack}.c` | `Tools.v` | `ToolsProofs.v` |
| `tools/{rank,check_cert,kernel,solve,echelonize,dm,common}.c` | `ToolsElim.v` | `ToolsElimProofs.v`, `DmTool.v` |
| options of `tools/{rank,kernel,solve,common}.c` | `Options.v` | `OptionsProofs.v`, `OptTools.v` |
| options of `tools/{echelonize,check_cert,dm,bitmap}.c` | `ToolOptions.v` | `ToolOptionsProofs.v`, `ToolMains.v` |
| `tools/bitmap.c`, `tools/dm.c` (images) | `Pnm.v`, `ImageSize.v` | `PnmTools.v`, `ImageSizeProofs.v`, `ImageTools.v` |

Not modelled: `FFPACK::pReducedRowEchelonForm` and `FFPACK::pPLUQ` (external;
their contract is `SpecFfpack.v`, from which the one of `DenseSpec.v` follows (C72);
it leaves open the rank, the permutations and the matrices), OpenMP itself, compilers, weak-memory effects, timing, messages, argp and getopt (command lines are
already cut into options; see `Options.v` and `ToolOptions.v`).
Not expressible: real-time speed, statistical quality of `rand()`.

## Per property

Statements are in the `Prop*.v` files, which only contain theorems proved by
`exact lemma`, their `Print Assumptions`, and examples.  "refuted" means that the
faithful model contradicts the claim as stated in `properties.jsonl`; a witness
is given and the rest of the claim is proved.

| id | modelled | method | outcome | theorems |
|----|----------|--------|---------|----------|
| C01 | `spasm_ZZp_init` | Z arithmetic | proved | C01_init_canonical, C01_canonical_unique |
| C02 | `spasm_ZZp_add/sub` | bounds on the 64-bit sums | proved | C02_add_exact, C02_sub_exact |
| C03 | `spasm_ZZp_mul` | Flocq bound on the quotient | proved | C03_mul_exact, C03_model_mul |
| C04 | `spasm_ZZp_axpy` | Flocq bound on the quotient | proved: The operand a and y may moreover be any integers of 32 bits (C04_axpy_any) | C04_axpy_exact, C04_axpy_any, C04_model_axpy, C04_model_axpy_any |
| C05 | `gcdext`, `spasm_ZZp_inverse` | Euclid invariant | proved | C05_inverse_exact, C05_model_inverse |
| C06 | `spasm_compress` | counting sort invariant, sums of entries | partial: False as stated: remove_explicit_zeroes re-reads stale entries after a cancellation (C06_compress_refuted). Proved when no position has triplets summing to zero, unconditionally for pattern matrices, memory safety in all cases; C06_compress_rows tells exactly what is computed and C06_compress_first_rows that the rows are right up to the first one with a cancellation, included | C06_compress_partial, C06_compress_pattern, C06_compress_safe, C06_compress_refuted, C06_compress_rows, C06_compress_first_rows |
| C07 | `spasm_add_entry` | list of entries | proved | C07_add_entry, C07_fill |
| C08 | `spasm_transpose` | row lists | proved | C08_transpose, C08_transpose_twice |
| C09 | `spasm_permute` | row lists | proved | C09_permute |
| C10 | `spasm_submatrix` | row lists | partial: The clause on reversed ranges is false for rows: every such call writes out of bounds (C10_reversed_rows_refuted). The rest is proved | C10_submatrix, C10_reversed_rows_refuted |
| C11 | `spasm_pvec`, `ipvec`, `pinv`, `range_pvec` | array invariants | proved | C11_pvec, C11_ipvec, C11_pinv, C11_range_pvec |
| C12 | `spasm_random_permutation` | swap invariant | proved | C12_random_permutation |
| C13 | `spasm_scatter`, `xApy`, `Axpy` | sums | proved | C13_scatter, C13_xApy, C13_Axpy |
| C14 | `spasm_dfs`, `spasm_reach` | white/grey/black invariant, decreasing measure | proved: Termination (fuel never runs out), memory safety and exactness of the reached set for every pivot map | C14_reach |
| C15 | same | finishing order | proved: Topological order for every cycle-free pivot map, for spasm_reach and for a single spasm_dfs | C15_topological, C15_dfs, C15_upper_acyclic |
| C16 | `spasm_sparse_triangular_solve` | topological order and linear invariant | proved | C16_sparse_triangular_solve |
| C17 | `spasm_dense_forward_solve` | linear invariant | proved | C17_dense_forward_solve |
| C18 | `spasm_dense_back_solve` | linear invariant | partial: Proved for rows of L without duplicates. False otherwise, since the C code uses the first diagonal entry it meets (C18_duplicates_refuted) | C18_dense_back_solve_partial, C18_duplicates_refuted |
| C19 | `spasm_solve` | C17 + C18 | proved | C19_solve |
| C20 | `spasm_gesv` | interleaving model, independence of the schedule | proved: Every interleaving of the atomic captures and of the three writes of each entry; the solutions do not depend on the schedule. Hypothesis: a complete factorization (its row space contains the rows of A) | C20_gesv, C20_schedules |
| C21 | `spasm_pivots_find` | rank functions; every interleaving of the greedy search | proved: Faugere-Lachartre, column variant and greedy search; the greedy search is proved for every interleaving of the threads' accesses to shared memory (one atomic step per access), for rows without duplicates and without explicit zeroes | C21_pivots_find, C21_greedy_schedules, C21_leftmost, C21_register |
| C22 | `spasm_pivots_reorder` | depth-first search invariant | proved: Depth-first search over all pivotal columns; assertions never fire, every row exactly once, pivotal rows first and upper-triangular | C22_topological_order |
| C23 | `spasm_pivots_extract_structural` | C21 + C22 | proved: Includes the pivot search and the ordering; any previous state of U and L such that the rows of A have no entry on the pivotal columns of U | C23_extract_structural |
| C24 | `spasm_schur` | C16 + C25 | proved: For every schedule, initial capacity and content of the scratch space | C24_schur |
| C25 | append protocol of schur, rref, kernel | small-step semantics refined to a sequential append | proved: Small-step interleaving semantics, one task per loop iteration, sequentially consistent memory (justified by the absence of races). Progress messages are not modelled | C25_protocol, C25_rows, C25_schur, C25_rref, C25_kernel |
| C26 | `echelonize_GPLU` | row space invariant | partial: From an empty factorization and, with the general invariant, from any Schur complement. Without L the claim needs an honest completion test (hypothesis) and, in the general form, that A is the original matrix: the early exit is wrong otherwise (see C28_gplu_refuted) | C26_gplu_partial, C26_gplu_schur, C28_gplu_refuted |
| C27 | `spasm_echelonize` | invariant over the rounds | partial: Proved for every option, schedule, random draw and density estimate, with these exclusions: L without complete in the dense finisher after a first round (out of bounds, C48_pivotal_refuted); failures are characterised (non-termination and overflow of the low-rank mode; NaN converted to an integer when every column has a pivot, C27_nan_refuted). FFPACK is assumed to meet DenseSpec.v | C27_soundness, C27_rank, C27_nan_refuted |
| C28 | same | same, rank arguments; four witnesses | partial: False in general, with four witnesses. Proved when L is requested, or when the remaining rows are handled by the dense finisher, or by GPLU on the original matrix when the completion test is not fooled; not in low-rank mode. C28_completion_test bounds how often it is fooled: one sequence of draws in p^Sn, with Sn combinations | C28_rank_partial, C28_gplu_refuted, C28_lowrank_refuted, C28_rank_ub_refuted, C28_termination_refuted, C28_completion_test |
| C29 | same, with L | same | partial: For the same options as C27. A = LU on the pivotal rows always, on every row with complete; factors (used by the solvers) as soon as a finisher is enabled | C29_LU_partial, C48_pivotal_refuted, C27_nan_refuted |
| C30 | `spasm_rref` | C16 + C25 | partial: Proved under the bound r*(m-r+1) < 2^31 on the size of the result, since rref.c:137 stores row pointers in an int. False beyond: C30_rref_all (every matrix whose columns without pivot are full, whatever the schedule), C30_rref_refuted | C30_rref_partial, C30_rref_all, C30_rref_refuted |
| C31 | `spasm_kernel` | duality | proved: Values are reduced for p >= 3 (the code stores -1, not canonical when p = 2) | C31_kernel |
| C32 | `spasm_kernel_from_rref` | explicit form | partial: False for moduli above 2^31: the value p-1 is stored in a 32-bit integer without normalisation (witness with p = 4294967291). Proved for p <= 2^31 and less than 2^31 entries, including spanning | C32_kernel_from_rref_partial, C32_kernel_from_rref_refuted |
| C33 | `spasm_maximum_matching` | Koenig certificate | proved: Maximality is proved against every matching of the pattern, through a closed set of rows (Koenig certificate) kept by the search | C33_matching, C33_size |
| C34 | `spasm_strongly_connected_components` | Tarjan invariant | proved: The whole iterative Tarjan search is modelled; blocks are exactly the strongly connected components and the permuted matrix is block upper triangular. 32-bit positions are assumed to fit | C34_scc |
| C35 | `spasm_dulmage_mendelsohn` | closure of both searches + C33 + C34 | proved: Coarse decomposition from both searches, sizes, zero-free diagonals, block triangular form, maximality, and irreducible fine blocks. When the square part is empty the function returns no fine block and leaves marks in r and c (C35_no_square_refuted) | C35_dm, C35_no_square_refuted |
| C36 | `SHA256_*` | refinement to FIPS 180-4 | proved: The specification computes the constants of FIPS 180-4 from the square and cube roots of the first primes. Little-endian machines; lengths below 2^61 bytes | C36_sha256 |
| C37 | `spasm_prng_*` | counting of preimages | partial: Proved for all seeds and moduli up to 2^34 - 8 words per seeding; beyond that the int counter overflows (C37_counter_refuted). The number of rejected words depends on SHA-256, so that the loop is bounded by fuel | C37_stream, C37_simple, C37_blocks, C37_field, C37_unbiased, C37_counter_refuted |
| C38 | `spasm_triplet_load`, `*_save` | printer/parser inversion | proved: byte-level model of the text written and read; the library's text functions are modelled in Stdio.v | C38_csr, C38_triplet, C38_values, C38_pattern |
| C39 | hash in `spasm_triplet_load` | loop invariant + C36 | proved: every accepted file: the hash is that of the bytes before the first NUL, hence of the whole file without NUL; with a NUL in the last line it is not (refuted part) | C39_hash, C39_whole, C39_nul_refuted |
| C40 | MatrixMarket loading | same | partial: holds for nnz > 0; files with no entry are always rejected (refuted) | C40_load_partial, C40_empty, C40_empty_refuted |
| C41 | `spasm_certificate_rank_create/verify` | linear algebra | proved: Whole creation and verification, from the hash to the answer; also that the certified number is the rank. The only failures are those of the generator: its rejection loop is bounded by fuel and its counter may overflow (see C37) | C41_complete |
| C42 | `spasm_certificate_rank_verify` | hyperplane argument; forgeries | partial: False: the challenge does not depend on the committed rows and columns, so that certificates can be forged after the challenge is known (witness, and a general forgery). Proved: for rows and columns fixed in advance, a wrong claim in either direction is accepted only for challenges in a fixed hyperplane, which holds one vector in p | C42_sound_refuted, C42_forgery_refuted, C42_too_large_partial, C42_too_small_partial, C42_challenge, C42_hyperplane |
| C43 | `spasm_rank_certificate_save/load` | printer/parser inversion | partial: False of the code: spasm_rank_certificate_load reads the column indices into proof->i and leaves proof->j uninitialised. Proved: everything else comes back (r, prime, hash, x, y), i receives the columns; witness of an accepted certificate that is rejected after the round trip; a certificate whose rows and columns differ never comes back | C43_reload_partial, C43_reload_refuted, C43_never_refuted |
| C44 | `spasm_factorization_verify` | linear algebra | proved: Correct factorizations are accepted for every seed; the answer is characterised; rows without pivot are not checked, so that a U of too small rank is accepted (C44_rank_refuted) | C44_accepts, C44_answer, C44_wrong, C44_rank_refuted |
| C45 | `spasm_datatype_read/write`, `gather` | exactness of int to float/double | proved: float and double are Flocq's binary32/binary64; also for the rows written by gather (spasm_schur.c) | C45_roundtrip, C45_gather, C45_integers |
| C46 | `spasm_csr_realloc/resize` | array lemmas | proved | C46_realloc, C46_resize |
| C47 | `spasm_permute_row_matching`, `spasm_submatching` | array lemmas | partial: Submatching only when the rows and columns of the submatrix are matched together; its bound test is wrong otherwise (refuted) | C47_permute, C47_submatching_partial, C47_submatching_refuted, C47_submatching_result |
| C48 | `update_fact_after_LU`, dense finisher | linear algebra on FFPACK contract | partial: False (out of bounds write) when L is requested without complete after a first round; proved otherwise | C48_update_U, C48_update_fact, C48_dense_partial, C48_pivotal_refuted |
| C49 | echelonize + kernel | C27/C28 + C31 | proved | C49_kernel |
| C50 | SMS loading | printer/parser inversion | proved | C50_sms, C50_type |
| C51 | loading of truncated files | same | proved | C51_sms, C51_mm |
| C52 | `spasm_datatype_choose` | exact bounds | proved: a*x+y of balanced representatives is held exactly by the chosen type, and would not be by the smaller one | C52_exact, C52_sharp |
| C53 | the transpose tool, composition of loading, compression, transposition and saving | chaining C50/C40, C06, C08 and C38 | proved: from the bytes of the input to the bytes of the output | C53_transpose |
| C54 | the vertical_swap tool | loop invariant on the columns, C50/C40, C38 | proved: from the bytes of the input to the bytes of the output; despite its name the tool reverses the columns | C54_vertical_swap |
| C55 | the stack tool | positions in the filtered list of used rows/columns, C50/C40, C38 | proved: from the bytes of the input to the bytes of the output; below 2^31 entries because the tool keeps their number in an int | C55_stack |
| C56 | `spasm_save_pnm` in modes 1 and 2, the bitmap tool; the gray level is an oracle | loop invariants over the pixels, words of the text; counter-examples by computation | partial: Proved when both dimensions or none of them are given, and with one of them not smaller than that of the matrix. False otherwise: with only --height smaller than the number of rows (or --width, of columns) the other dimension is 0 and the entries are counted out of bounds; the gray levels of a matrix without entries are 0/0, caught by an assertion; --mpixels=0 gives an image of negative dimensions. The level computed with exp and log is an oracle | C56_bw, C56_gray_partial, C56_tool_partial, C56_tool_default_partial, C56_tool_height, C56_tool_width, C56_exclusive, C56_size_refuted, C56_no_entry_refuted, C56_zero_refuted |
| C57 | the rank tool with its options, from the text of the input | chaining C50/C40, C06, C08, C27, C28, C41; row rank = column rank (RankT.v) | partial: From the bytes of the input. The certificate is accepted for the matrix that was eliminated; a wide matrix is transposed before, so that its certificate, with the hash of the file, is that of another matrix (C57_transposed_refuted); with the dense options the tool reads out of bounds (C57_dense_refuted). FFPACK is assumed to meet DenseSpec.v | C57_rank, C57_rank_defined, C57_certificate_partial, C57_dense_refuted, C57_transposed_refuted |
| C58 | the check_cert tool, including the ignored result of the loading | chaining C43 and C44; counter-examples by computation | partial: False: the message and the exit code are the opposite of the answer, and the result of loading the certificate is ignored. Proved: exactly what the tool prints for every saved certificate, that every certificate of another file is found correct, and that an empty file is | C58_message_partial, C58_wrong_refuted, C58_valid_refuted, C58_empty_refuted |
| C59 | the kernel tool, from text to text | chaining C50, C27, C49, C38 | partial: Proved when the entries of the file at a same position do not cancel; false otherwise (C79_kernel_refuted). From the bytes of the input to those of the output; modulo 2 the values are -1, which the balanced representatives exclude. Same exclusions of options as C27 | C59_kernel_partial, C79_kernel_refuted |
| C60 | the solve tool, from texts to text and warnings | chaining C50, C27, C29, C20, C38; counter-examples by computation | partial: Proved when B has as many columns as A. The tool does not check it: a narrower B with at least one row always leads to a read out of bounds, and the extra columns of a wider B are ignored (C60_columns) | C60_solve_partial, C60_columns, C60_narrow_refuted, C60_wide_refuted |
| C61 | the echelonize tool, from text to text | chaining C50, C27, C28, C31, C38 | partial: Proved when the entries of the file at a same position do not cancel (false otherwise, C79_echelonize_refuted) and, with --rref, under the bound of C30. From the bytes of the input to those of the output; without --rref explicit zeroes are written. Same exclusions of options as C27 | C61_echelonize_partial, C79_echelonize_refuted |
| C62 | `dm_matrix`, `tool_dm`, `tool_dm_report` (ToolsElim.v) | chaining C50, C35, C67, C38 (`DmTool.v`); printed text described by `SpecReport.v` | partial: Proved when the entries of the file at a same position do not cancel; false otherwise (C79_dm_refuted). From the bytes of the input to those of the output, for the permuted matrix and for the verbose mode. The sum rr[2] + cc[4] of the verbose mode overflows from 2^31 on: this outcome is part of the statement | C62_dm_partial, C62_report_partial, C79_dm_refuted |
| C63 | `spasm_save_pnm` in mode 3, the dm tool with --image | invariant of the diagonal block of the current row; chaining C50, C35 | partial: Proved when the entries of the file at a same position do not cancel (otherwise the matrix that is drawn is that of C79). From the bytes of the input to those of the image. The dimensions computed in floating-point arithmetic are an argument | C63_image_partial |
| C64 | same as C21 | same invariants as C21: marks of the columns seen, columns of the queue reachable from the row; a row that gives up cannot get a pivot later | proved: For every interleaving of the accesses of the threads to shared data | C64_maximal, C64_progress, C21_greedy_schedules |
| C65 | `triplet_load`, `scan3`, `scan_sms`, `validate_mm_header`, `fgets` | inversion of each scanning function (`IOAccept.v`), invariant on the lines read so far; the form of accepted files is in `SpecAccept.v` | proved: Numbers may be followed by other characters and need not be separated if a sign separates them. The sign of the dimensions is not checked: a file announcing -2 rows is accepted | C65_accepted, C65_unique, C65_dimensions_refuted |
| C66 | same as C65, `csr_save`, `triplet_save` | C65 applied to the beginning; lines of a beginning (`cut`), numbers are read in one way (`IOCut.v`) | partial: Proved for SMS files, hence for saved files. False of MatrixMarket files: cut inside the last value, 15, the file is accepted with the value 1; proved for those cut at the end of a line | C66_sms, C66_csr, C66_triplet, C66_mm_partial, C66_mm_refuted |
| C67 | same as C35 | exchanges along simple paths and cycles, counting in block form, cycles of a permutation (`PartsProofs.v`); spec `SpecParts.v` | proved: The parts are described by the largest transversals (SpecParts.v), independently of any matching. The number of blocks is not compared between two matrices of the same pattern, the blocks are those of C67_parts | C67_parts, C67_sizes |
| C68 | `parse_rank`, `parse_kernel`, `parse_solve`, `main_rank`, `main_kernel`, `main_solve`, `init_opts` (Options.v) | induction on the command line, one case per option; then C57, C59, C60 (`OptionsProofs.v`, `OptTools.v`); documented options in `SpecOptions.v` | partial: The options are proved in full, for integers that fit. The programs: rank --certificate and solve are proved with --no-dense-mode; with the default options they access memory outside of an array (C68_certificate_refuted, C68_solve_refuted). kernel is proved with --no-low-rank-mode and thresholds that select the dense elimination; the other modes stop on a probabilistic test. A block size of 0 makes an assertion fail. argp is a parameter of the model: it hands over the options in order; the thresholds are oracles | C68_rank_options, C68_kernel_options, C68_solve_options, C68_rank, C68_certificate, C68_kernel, C68_solve, C68_numbers_refuted, C68_certificate_refuted, C68_solve_refuted, C68_block_refuted |
| C69 | `getopt_parse`, `parse_echelonize`, `parse_dm`, `parse_bitmap`, `parse_check`, `main_echelonize`, `main_dm`, `main_bitmap`, `main_check` (ToolOptions.v) | induction on the command line, then C56, C58, C61, C62, C63 (`ToolOptionsProofs.v`, `ToolMains.v`); documented options in `SpecToolOptions.v` | partial: The options are proved in full, for integers that fit in an int; --modulus=4294967291, a prime that the library accepts, does not (C69_modulus_refuted). The programs: echelonize writes the whole row space with --no-low-rank-mode and thresholds that select the dense elimination; the other modes stop on a probabilistic test. dm --tabulated prints nothing; check_cert says that the certificate of another file is correct (C58). Numbers read by atof are oracles | C69_echelonize_options, C69_dm_options, C69_bitmap_options, C69_check_options, C69_echelonize, C69_dm, C69_dm_verbose, C69_dm_image, C69_dm_tabulated_refuted, C69_bitmap, C69_bitmap_pixels, C69_check, C69_check_refuted, C69_modulus_refuted |
| C70 | `human_format`, `tenths` (Human.v) | half an ulp of the quotient is below the distance to a tie (`HumanProofs.v`); spec `SpecHuman.v` | partial: Proved in binary64 for all sizes up to 10^15 (excluded); from there on nothing is written in the buffer, which is then printed (a MatrixMarket header may announce that many entries), and negative numbers of 7 digits are cut. printf is taken to round exactly, as in the GNU C library | C70_human, C70_order, C70_large_refuted, C70_negative_refuted |
| C71 | `image_size` (ImageSize.v), `main_bitmap`, `main_dm` | relative errors of the four roundings, on squares (`ImageSizeProofs.v`); C56, C63, C69 (`ImageTools.v`) | partial: Proved in binary64 for 1 to 2000 millions of pixels. False of matrices with more than a million rows per column (or columns per row), whose picture has no column: access outside of an array with the default options (C71_thin: all of them); false of matrices without rows or columns (division by zero). With exactly a million rows per column, rounding errors decide (C71_boundary_refuted: no column left for 65 million rows and 65 columns) | C71_size, C71_bitmap_partial, C71_dm_partial, C71_thin, C71_thin_refuted, C71_boundary_refuted, C71_empty_refuted |
| C72 | `ffpack_rref`, `ffpack_LU`, `lapack_to_math` (Ffpack.v) | the array read so far is the composition of the exchanges made so far (`FfpackProofs.v`); spec `SpecFfpack.v`; a library that meets it: `FfpackRef.v` | proved: Relative to the contract of FFPACK's own routines stated with sequences of exchanges (SpecFfpack.v), which C72_library shows can be met on every matrix; LAPACKPerm2MathPerm belongs to the library and is modelled after its description. C72_elimination: the contract assumed by the elimination theorems follows | C72_conversion, C72_rref, C72_LU, C72_elimination, C72_library |
| C73 | `csr_realloc0`, `triplet_realloc0`, `echelonize0`, `triplet_load0` (Null.v) | after one round U and L have entries (C64), and no step removes them, so nothing is trimmed to zero cells: both models take the same steps (`NullProofs.v`) | partial: Proved of spasm_echelonize when at least one structural elimination is allowed (the default is 3) or the dense finishers are disabled, for a dense library whose ranks are at most the dimensions. False with --max-iterations=0: if the first block of rows is zero, the array of the values of U is NULL from then on, and it is dereferenced at the next pivot. After loading an SMS file without entries, the values of the entries that are added are lost | C73_elimination_partial, C73_elimination_refuted, C73_load_partial, C73_add_refuted |
| C74 | `compress32`, `strongly_connected_components32` (Wide.v), `kernel_from_rref` | same steps as the models without truncation as long as positions fit; beyond, the loop reaches the overflow, or reads at a negative position (`WideProofs.v`) | partial: Proved below 2^31 entries. From there on, false of all three: spasm_compress (its first loop counts the triplets with an int: C74_compress_all, every matrix), spasm_kernel_from_rref (the position of the pivot of a row is truncated: C74_kernel_all, every matrix where it is between 2^31 and 2^32), spasm_strongly_connected_components (int p = Ap[j] + px: C74_scc_all, C74_scc_refuted). spasm_rref has the same truncation (C30_rref_all) | C74_compress_partial, C74_compress_values, C74_compress_all, C74_compress_refuted, C74_kernel_all, C74_kernel_refuted, C74_scc_partial, C74_scc_all, C74_scc_refuted |
| C75 | `eval`, `byte_sites`, `entry_sites` (Sizes.v): integer expressions of C with the usual arithmetic conversions, one per allocation | one lemma per operator: the value fits in the type of the result (`SizesProofs.v`) | partial: Proved up to 715827882 rows and columns, 2^30 rows in a block, 2^60 entries and pictures with less than 2^31 pixels. False beyond: 3 * m overflows for every matrix with 715827883 columns or more (C75_workspace_all), n + 1 with 2^31 - 1 rows, x * y for pictures with 2^31 pixels, 2 * Sm with 2^30 columns | C75_bytes_partial, C75_entries_partial, C75_workspace_all, C75_workspace_refuted, C75_rows_refuted, C75_picture_refuted, C75_dense_refuted |
| C76 | `Lifetime.v`: the allocations, uses and frees of every function, with the local copies of pointers; what decides loops is an argument | a counting separation logic: each block has a number of owners, one rule per operation (`LifetimeBase.v`, `LifetimeElim.v`, `LifetimeProofs.v`) | partial: No block is used or freed after it was freed, anywhere. Blocks are lost by the strongly connected components (1), the Dulmage-Mendelsohn decomposition (2 or 4) and rank --certificate (5): proved exactly, hence the refuted parts. The tools kernel, solve and dm end without freeing everything, they are only proved safe (C76_programs_partial). Loops and decisions are arguments of the model | C76_matrices, C76_echelonize, C76_echelonize_L, C76_lu_free, C76_kernel, C76_kernel_from_rref, C76_rref, C76_solve, C76_gesv, C76_certificate, C76_verify, C76_scc_all, C76_scc_refuted, C76_dm_all, C76_dm_refuted, C76_matching, C76_programs, C76_rank_all, C76_programs_partial |
| C77 | `hload` (Header.v): `triplet_load` with the sizes of the arrays computed as in C, apart from nzmax | loop invariants on the hash context and the sizes of the arrays (`IOSafe.v`); both models take the same steps, or malloc fails (`HeaderProofs.v`) | partial: Proved of every file without NUL that does not announce 2^61 entries or more (C77_bytes: with NULs too, apart from the sizes of the arrays). False otherwise: nnz * sizeof(int) wraps around, so a header that announces 2^62 + k entries, or a negative number, gives arrays of k cells, and entry k + 1 is written outside (C77_wraps_all). Numbers that do not fit in the type that scanf reads are the outcome Overflow, not excluded | C77_bytes, C77_same, C77_load_partial, C77_wraps_all, C77_wraps_refuted |
| C78 | `nload_csr`, `ntool_transpose`, `ntool_vertical_swap`, `ntool_stack` (AnyInput.v): the tools of Tools.v with the blocks of memory of the size computed in C, for dimensions that may be negative | what is known of the matrix loaded from any bytes (`spans`), then both models take the same steps or the program stops (`tame`, `AnyProofs.v`) | partial: Proved of vertical_swap and stack; of transpose, and of loading then compressing, unless the file announces -1 rows and has no entry that is not zero modulo p. In this case, and in no other (C78_oob), spasm_csr_alloc asks for a block of 0 bytes and writes one cell in it. As in C77: no NUL, less than 2^61 entries announced, outcome Overflow not excluded. C78_same: on the file of a matrix, the tools are those of C53-C55, or they run out of memory | C78_csr_partial, C78_oob, C78_transpose_partial, C78_swap, C78_stack, C78_same, C78_transpose_refuted |
| C79 | the tools of C53, C57 and C59 to C62 | rows of the compressed matrix (C06_compress_rows), then the proofs of these tools; the wrong answers by evaluation on a witness | partial: False as stated, for every one of these tools: on a 3 x 3 file whose only row is (1 - 1, 1, 1), rank prints 2 (with a certificate found correct), kernel misses a vector, echelonize writes a row that is not in the row space, solve gives a solution that is none. Proved when only the last row of the compressed matrix has cancellations; in all cases the rows are right up to the first one with a cancellation, included (C79_loaded) | C79_rank_partial, C79_certificate_partial, C79_kernel_partial, C79_solve_partial, C79_echelonize_partial, C79_dm_partial, C79_transpose_partial, C79_loaded, C79_rank_refuted, C79_certificate_refuted, C79_kernel_refuted, C79_echelonize_refuted, C79_solve_refuted, C79_transpose_refuted, C79_dm_refuted |
| C80 | `nload_matrix`, `ntool_rank`, `ntool_kernel`, `ntool_echelonize` (AnyElim.v): the tools of ToolsElim.v after the loading of C78 | the dimensions after loading (`load_dims`), the matrix compressed from any bytes (`nload_matrix_holds`), then what C57 to C60 prove of the rest of the tools (`rank_after`, `kernel_after`...) | partial: Proved unless the file announces -1 rows (columns, when the tool transposes) with no entry that is not zero modulo p: there a cell outside a block of 0 bytes is written (C80_rank_refuted, C80_kernel_refuted). As in C77: no NUL, less than 2^61 entries announced, outcome Overflow not excluded. No cancellation of the entries at a position (hypothesis quiet; false otherwise, C79), and for echelonize the bound on the entries of the reduced form as in C57. The tools solve and dm on any bytes: C81 | C80_rank_partial, C80_certificate_partial, C80_kernel_partial, C80_echelonize_partial, C80_unique, C80_rank_refuted, C80_kernel_refuted |
| C81 | `ntool_solve`, `ntool_dm`, `ntool_dm_report` (AnySolve.v): the tools of ToolsElim.v after the loading of C78 | `nload_matrix_holds` (C80), then what C60 and C62 prove of the rest of the tools (`solve_after`, `dm_save_ok`, `dm_report_ok`) | partial: Same exceptions and hypotheses as C80 (-1 rows, no cancellation, no NUL, less than 2^61 entries announced, Overflow not excluded). For solve, moreover: when the right-hand side has less columns than the matrix and at least one row, the tool reads outside of a block (always: C81_solve_partial gives no answer in this case); when it has more, the answer is right for the first columns only | C81_dm_partial, C81_report_partial, C81_solve_partial, C81_dm_refuted, C81_narrow_refuted |
| C82 | `ncert_load`, `ntool_check_cert` (AnyCert.v): the loader with the blocks that malloc gives, the tool of ToolsElim.v | arrays and numbers followed through the reading (`ncert_load_any`), `nload_matrix_holds` (C80), then C42 (`verify_gen`). The products of numbers that are not reduced are exact: C04_axpy_any | partial: Proved unless the file announces a rank r for which malloc(4 r) fails. The pointer is not checked: whatever malloc refuses, a short file makes the loader write behind a null pointer (C82_load_refuted). Same exceptions and hypotheses as C80 for the matrix; the uninitialised memory must not contain the hash of the file when the certificate cannot be read. A negative rank is handled as rank 0 (C82_negative), so that the zero matrix has an accepted certificate of rank -1 (C82_negative_refuted). The columns are never read (C43), so that they are indeterminate | C82_load_partial, C82_same, C82_load_refuted, C82_check_partial, C82_shape, C82_negative, C82_negative_refuted |
| C83 | `ntool_bitmap`, `ntool_dm_image` (AnyImage.v): the tools of Pnm.v after the loading of C78 | the pattern read from any bytes (`npattern_any`) and `nload_matrix_holds` (C80), then what C56 and C63 prove of the drawing (`pattern_draw`, `dm_draw_ok`); matrices without entries, rows or columns apart (`blank_gray`, `draw_empty`) | partial: Same exceptions and hypotheses as C80 (-1 rows and no entry, no NUL, less than 2^61 entries announced, Overflow not excluded; no cancellation, for dm). bitmap: any letter in the header, both dimensions given, or none of them; without rows or columns, nothing is said in the latter case (C71_empty_refuted). dm --image without rows or columns: division by zero, never a picture (C83_dm_partial, C83_dm_empty_refuted). A gray picture without entries has no pixel, or the tool stops | C83_bitmap_partial, C83_bitmap_default_partial, C83_dm_partial, C83_bitmap_refuted, C83_dm_refuted, C83_dm_empty_refuted |

## Findings

Behaviours of the code contradicting its documentation or expectations, each
established on the model (the theorem is cited) or by reading.

1. `remove_explicit_zeroes` (`spasm_triplet.c:36-58`) reads the row pointer it has
   just overwritten: after a cancellation, later rows receive stale entries
   (C06_compress_refuted). With a file of 4 entries, all the tools that compress their input give a
   wrong answer; the wrong rank even comes with a certificate found correct (C79).
2. `spasm_submatrix` with `r1 < r0` writes before its array (C10_reversed_rows_refuted).
3. `spasm_kernel_from_rref` stores `p-1` in a 32-bit integer (C32_kernel_from_rref_refuted).
4. `spasm_echelonize`: NaN converted to an integer when every column has a pivot
   (C27_nan_refuted); early exit of GPLU from a Schur complement
   (C28_gplu_refuted); low-rank mode may miss pivots (C28_lowrank_refuted), uses a
   wrong upper bound on the rank (C28_rank_ub_refuted) and may not terminate
   (C28_termination_refuted); the dense finisher with L without `complete` writes
   out of bounds (C48_pivotal_refuted).
5. `spasm_rank_certificate_load` (`spasm_certificate.c:264-267`) reads the columns
   into `proof->i` (C43_reload_refuted, C43_never_refuted); its four `malloc` are not checked, so that a
   short file that announces a large rank makes it write behind a null pointer (C82_load_refuted); a
   negative rank is not rejected (C82_negative_refuted).
6. The challenge of a rank certificate does not depend on the committed rows and
   columns: certificates can be forged (C42_sound_refuted, C42_forgery_refuted).
7. `spasm_factorization_verify` only checks the pivotal rows (C44_rank_refuted).
8. MatrixMarket files without entries are rejected (C40_empty_refuted); bytes after
   a NUL in the last line are not hashed (C39_nul_refuted); negative dimensions are
   accepted (C65_dimensions_refuted); a MatrixMarket file cut inside its last value is
   accepted with another value (C66_mm_refuted).
9. `spasm_submatching`'s bound test is wrong (C47_submatching_refuted).
10. `spasm_dulmage_mendelsohn` with an empty square part returns no block and leaves
    marks in `r` and `c` (C35_no_square_refuted).
11. The generator's `int` counter overflows (C37_counter_refuted).
12. `spasm_random_permutation` draws `rand() % i`, hence only cyclic permutations
    (Sattolo); it is a permutation (C12).
13. Read only: `int` row pointers in `spasm_rref.c:137`, `spasm_kernel.c:149`, `spasm_scc.c:61`;
    `char` compared to -1 in `spasm_pivots.c` and `tools/echelonize.c`; `prev` leaked
    in `spasm_scc.c`; `fact->complete` uninitialised without L; `spasm_kernel`
    stores -1 (not canonical for p = 2); `spasm_human_format` leaves its buffer
    uninitialised from 10^15 on (C70_large_refuted).
14. Tools: `check_cert` prints the opposite of the answer and ignores whether the
    certificate was read (C58_valid_refuted, C58_wrong_refuted, C58_empty_refuted);
    `rank --certificate` with the dense finisher goes out of bounds, and the
    certificate of a wide matrix is about its transpose (C57); `solve` does not check
    the width of B (C60_narrow_refuted, C60_wide_refuted); `echelonize` writes
    explicit zeroes; `stack` counts the entries in an `int`;
    `dm --verbose` may overflow an `int` (C62_report_partial); `transpose`,
    `vertical_swap`, `stack` and `dm` reduce the values modulo 42013;
    `vertical_swap` reverses the columns; with no option at all, `rank --certificate` and
    `solve` go out of bounds (C68_certificate_refuted, C68_solve_refuted), numbers on the
    command line are read by `atoi` without check (C68_numbers_refuted,
    C68_block_refuted).
15. `bitmap` with only one of `--width` and `--height`, smaller than the matrix,
    writes out of bounds (C56_size_refuted); gray levels of a matrix without entries
    stop on an assertion (C56_no_entry_refuted); `--mpixels=0` gives an image of
    negative dimensions (C56_zero_refuted); a matrix with more than a million rows per
    column, or columns per row, goes out of bounds with the default options (C71_thin).
16. `echelonize` reads the modulus as an `int` (C69_modulus_refuted) and a file name on the
    command line is ignored, as by `dm` and `bitmap`; `dm --tabulated` prints
    nothing (C69_dm_tabulated_refuted).
17. `realloc(ptr, 0)` returns NULL in the GNU C library, and NULL stands for a matrix without
    values: with `--max-iterations=0`, a matrix whose first block of rows is zero makes the
    dense finisher dereference NULL (C73_elimination_refuted); after loading an SMS file
    without entries, `spasm_add_entry` loses the values (C73_add_refuted).
18. `spasm_compress` counts the triplets with an `int`, which overflows from 2^31 triplets on
    (C74_compress_all); `spasm_kernel_from_rref` and `spasm_rref` truncate row pointers
    to 32 bits (C74_kernel_all, C30_rref_all), and `spasm_scc.c:61` positions (C74_scc_all).
19. `3 * m * sizeof(int)` is computed in 32 bits: from 715827883 columns on, the workspace of
    the sparse triangular solver has a wrong size (C75_workspace_all).
20. `prev` is never freed in `spasm_scc.c`, nor `jmatch`, `imatch` and `qinv` in `spasm_dm.c`
    (C76_scc_all, C76_dm_all); `rank` does not free its certificate (C76_rank_all). The memory leak
    that the comment at `spasm_echelonize.c:471` fears does not exist (C76_echelonize).
21. The size of the arrays of entries wraps around when a MatrixMarket header announces 2^62
    entries or more, or a negative number: the entries of the file are then written outside
    of the arrays (C77_wraps_all). In the other theorems on files (C40, C51, C65, ...) the arrays
    have as many cells as announced: they hold of the code below 2^61 announced entries (C77_same).
22. A file may announce a negative number of rows; nothing checks it. With -1 rows and no entry
    (`-1 3 M`, then `0 0 0`: 13 bytes), `spasm_csr_alloc` allocates `(n + 1) * sizeof(i64)` = 0 bytes
    and sets `A->p[0]` (src/spasm_util.c:97-100), for all the tools that compress the matrix they load
    (`C78_transpose_refuted`, exact condition `C78_oob`; `C80_rank_refuted`). With other negative dimensions malloc fails.
