# Formal model of Schnek in Rocq/Coq: design

Source: `/repo` (holgerschmitz/Schnek, C++), read as text; nothing is built or run.
Coq 8.16.1, theories in `rocq/theories`, logical name `Verif`.

## Conventions

* `XModel.v`  executable Gallina definitions, each with a comment citing file and lines.
  No proofs.
* `XSpec.v`   small independent specifications used in the theorem statements.
* `XProofs.v` lemmas. `XExamples.v` concrete cases.
* `XProps.v`  only the property theorems (`C05_...`), each closed by `exact`, an `Example`
  showing that the hypotheses are met by a concrete non-trivial case, and `Print Assumptions`.
* `..._partial`: only part of the English property (the comment says what is missing);
  `..._refuted`: the code violates the property; the witness is evaluated by the kernel and
  described below as a finding.  The status in `MANIFEST.json` is `proved` only if no theorem of
  the property is partial or a refutation.
* C++ undefined behaviour, aborts, exceptions and non-termination are distinct outcomes of
  the model, never defaulted.
* C++ `int` coordinates are unbounded `Z` unless the property is about wrap-around (C07) or the
  theorem mentions the 31-bit range (HDF sizes, random numbers, buffers, means).
* Arrays of rank N are lists of length N; a theorem quantifying over the rank quantifies over
  the length of the list.
* Loops whose termination is not structural take fuel; theorems then say "for all sufficiently large
  fuel" or give the bound.

## Plan per property

| id | model | proof |
|----|-------|-------|
| C01, C02 | `Range` and its iterator as a state machine (`pos`, `atEnd`), loop with fuel | the k-th state of the iterator is the k-th element of the lexicographic enumeration; C02 refuted by a witness |
| C88 | the same loops over machine integers: increment of the largest value is undefined, the index is passed by reference, the function object by value | induction over the indices that remain; the last increment |
| C03, C84 | the recursive `forEach` of both policies, over a state-passing function; the Kokkos policy with an arbitrary order of the calls | induction on the rank; enumeration = lexicographic / colexicographic list, NoDup, membership; permutations |
| C04 | `inside`, `grow`, `project`, `projectDim` | case analysis on lists |
| C05, C06, C08 | `get`, `updateDataFast`, `stride` for both orders | mixed-radix representation: injective, onto [0,size) |
| C07 | same functions with arithmetic modulo 2^64 | congruence of the fast address with the exact one, both in [0,2^64) |
| C09 | memory = map from address to value; ops read / write | refinement to a map from index to value |
| C10-C13 | heap of shared data blocks with updater maps, grids as handles; step function over ops | invariant over op lists for copy-only histories; refutations with assignment; lazy allocation capacity invariant |
| C14 | the three checking policies | induction on rank |
| C15, C16 | loops of `grid.t` over linear memory, UB outcome on overrun | pointwise theorem; refutation |
| C17, C18, C64 | expression trees, element-wise evaluation, in-place loop | loop invariant; algebra |
| C19, C20 | bounds arithmetic; exact rational position arithmetic; binary64 via SpecFloat and Flocq | lia / field; refutation for binary64 |
| C21 | sub-grid view over base map | frame theorem; refutation for stale dims |
| C22-C25, C68 | `Boundary` arithmetic, serial exchange/accumulate as loops with two iterators over a grid map | loop = pointwise update because the iterators enumerate isomorphic ranges; induction over dimensions for corners |
| C26-C28, C30, C66, C67 | MPI init/exchange: every process runs its program, `MPI_Sendrecv` as message passing with an arbitrary interleaving | lock step theorem (every schedule has the same result, none deadlocks); tiling by monotone cuts; mixed radix; exchange by per-dimension induction |
| C29, C86 | the sieve, factorize, distribute (double comparison as an oracle; exact numbers for C86) | product invariant; primality of the sieve, unique factorisation, optimality by induction over the factors |
| C31 | byte buffer with an abstract element codec (trivially copyable) | round trip |
| C32-C35, C57, C87 | AST of the grammar, `BinaryOp` flattening constructor, promotion, evaluation | induction over expressions |
| C36-C39, C71 | the generated Ragel tables verbatim, `do_scan` loop | simulation between chunked and unchunked scan; longest match against regular expressions; witnesses for the violations |
| C40-C42, C72 | the generated Lemon tables verbatim, `Parse` loop | soundness: stack invariant validated against the automaton; completeness by simulation of the derivation; witnesses for stack overflow and EOF |
| C43-C48, C73-C75 | `VariableStorage`, `BlockVariables` trees, `BlockTree`, parameters; the semantic actions of the parser | induction over trees / statement lists, composed with the parser and scanner theorems (`..._text`) |
| C49-C53, C69, C70 | `DependencyMap` / `DependencyUpdater` over graphs | topological order, semantic correctness |
| C54, C79 | `fill_field` loop; the field filler with its function-static adder | pointwise theorem; history theorem |
| C55, C56, C76 | block tree phases, data lookup, containers | induction on trees |
| C58-C61, C77, C78 | diagnostics as step functions over the sequence of times, file events, several processes | induction over steps; Flocq for times in doubles |
| C62, C63 | bibliography as an ordered map; the BibTeX text | invariant over histories; parsing the printed text back |
| C65 | `drand`, `irand` in exact, rounded and bit arithmetic | field; Flocq |
| C80 | stream output as text | the text is the spec's layout; reading back by words |
| C81, C82 | HDF writing and reading with hyperslab selections, data set names | selections enumerate the box in C order; names by invariant |
| C83 | `mean` in exact arithmetic, for integers and for doubles | induction; Flocq for the integer division done in doubles and for the errors of the additions |
| C89 | `MPI_Allreduce` as any tree of applications of the operation to the values in any order | induction over trees; Flocq's relative error of an addition |
| C90, C91 | the events of C77 applied to `std::ofstream`s or HDF files in a directory of named contents | induction over the steps |
| C92 | stream objects with handles over a library that hands out fresh handles | invariant: handles held = handles open |
| C93 | attributes as addresses of variables | induction over the operations |
| C94 | pointers of the manager and existing objects | invariants over histories |
| C95 | loops of a simulation: update of the inner cells through a second grid, exchange | lock step execution of all rounds, lifted to every schedule; comparison with the undivided recurrence |
| C96 | the registry as shared tables, the calls that fill it, `std::min`, `std::max`, `normal`; the rest of the C library arbitrary | invariant over histories; C57; orders of SpecFloat; Flocq for integers and minima |
| C97 | the calls of `addParameter` made by `addArrayParameter` | induction over the calls, composed with C75 |
| C98 | transition system: processes run `setActive` and `open`; `MPI_Comm_create` waits for all processes, `H5Fopen`/`H5Fcreate` for those of the communicator in the property list | invariant over all schedules: progress, a bound on the events, communicators opened |
| C99 | descriptors, maps and `BlockClasses` objects as a heap of shared pointers; programs of registrations, copies and uses of references | invariant over programs against a specification that reads the history; composed with C73 for decks |
| C100 | diagnostics and readers as owners of two grids and a container within programs of grid operations ([ShareModel]); outputs as the containers and memory passed to `writeGrid` | invariant over programs against the sharing specification, composed with C81 for any number of processes |
| C85 | `Unique`, `Singleton` as state machines | invariant over histories |
| C101 | BibTeX's reading of a file as an automaton over characters | the printed text of C62 read back, by induction over fields and entries |
| C102 | the blocks of [ShareModel] | invariant over all programs that run, without assumptions on them |
| C103 | the parser and the actions of [ParseModel] and [DeckModel], the scanner of [ScanModel] | every reduction that throws starts within one statement (shape of the stack); the tokens of parser values by induction over derivations; lines by induction over the division of the text |
| C104 | the actions of [DeckModel], parser and scanner | a statement sets the variable it writes to the specified content; later statements that do not write it keep type and expression; [finish] evaluates for the final store; induction over the statements of a text |
| C105 | scanner, parser and actions as for C104; [evaluate_all] of [BlockModel] | composition of C75 and C104: a parameter's variable can be evaluated, so its value is the one C104 determines; variables without a writer belong to the parameter of the object that owns their block |
| C106 | the constructors and [resize] members of [Grid] with arguments by reference over [ShareModel] | references are read before and after the range of the grid is set; refinement to [ShareSpec] with the bounds the arguments had at the call |
| C107 | [ParametersGroup] over the decks of [DeckMeaning] | ids of new variables and of written ones are new; invariant of the group by induction over the events |
| C108 | [SubGrid] objects over the grid objects of [ShareModel] | simulation: views and grids of the model against [ShareSpec] with windows |
| C109 | who holds the buffers and the communicator of [MPICartSubdivision] | invariant: the heap is a permutation of what the initialised objects hold and what was lost |
| C110 | [setActive], [makeMPIGroup], [open], [writeGrid], [readGrid] of all processes together (C98: the openings alone, but in all schedules) | collective calls return iff all members of the communicator make them with that communicator; invariant on the communicators each process keeps |
| C111 | [GridTransformStorage], base grids as bounds and values | refinement: the state agrees with functions of the history, by induction over the program |
| C112 | the bounds of MpiModel with exact and binary64 cuts | nonlinear integer bounds on the cuts; Flocq error bounds for the computed ones |

## Trusted base

* Coq 8.16.1's kernel, including the `vm_compute` machine.
* The reading of the C++ described in the comments of the model files (there is no extraction from or
  comparison with the compiled program).
* The generated tables of scanner and parser (`src/parser/internal/deckscanner.cpp`,
  `src/parser/deckgrammar.inc`) were transcribed mechanically into `ScanModel.v` and `ParseModel.v`; their meaning is fixed by the modelled driver loops, not by the `.rl`/`.y` sources.
* External semantics written down as definitions or quantified over, never as axioms:
  `MPI_Sendrecv`/Cartesian communicators (`NetModel`, `MpiModel`), HDF5 hyperslabs (`HdfModel`), Kokkos
  views and dispatch (`KokkosModel`, `RangeModel`), `std::map` order, `lexical_cast` and the arithmetic
  of expressions (`arith` record, arbitrary), functions registered for decks (arbitrary functions).

### Assumptions

`Print Assumptions` is called for every property theorem. All of them are "Closed under the global context"
except these, which are about doubles and use Flocq over the standard library's real numbers:

`C20_positions_rounded`, `C20_round_trip_rounded_partial`, `C20_index_rounded`, `C20_rounded_hypotheses`, `C26_binary64_cuts`, `C59_doubles_rounded`, `C59_adjusted_double_partial`, `C59_double_arithmetic`, `C59_double_hypotheses`, `C65_doubles_partial`, `C65_last_draw_refuted`, `C83_integers_partial`, `C83_empty_refuted`, `C83_doubles_partial`, `C86_square_root`, `C89_average_integers`, `C89_sum_doubles`, `C89_average_doubles`, `C89_max_doubles`, `C89_min_doubles`, `C89_order_doubles`, `C96_integers_exact`, `C96_binary64`, `C96_normal`, `C96_hypotheses`, `C112_binary64_partial`, `C112_binary64_any`, `C27_enough_cells_binary64`, `C27_enough_hypotheses`, `C30_edges_rounded_partial`, `C30_rounded_hypotheses`, `C20_floor`

These list exactly `ClassicalDedekindReals.sig_not_dec`, `ClassicalDedekindReals.sig_forall_dec`,
`FunctionalExtensionality.functional_extensionality_dep` and `Classical_Prop.classic` (standard library).
Flocq is used as a library of definitions and lemmas; it adds no axiom.
No axiom, parameter, functor or module type is declared in `rocq/theories`.

## What is modelled and what is not

| source | modelled | not modelled |
|--------|----------|--------------|
| `grid/range.hpp`, `grid/iteration/*` | ranges, iterators, `forEach` of the three policies | concurrency inside a Kokkos function call |
| `grid/gridstorage/*` | index arithmetic, bias pointer, strides, allocation policies, shared data and updater maps, Kokkos views | `std::allocator` failure; exceptions; device memory |
| `grid/grid.{hpp,t}`, `gridcheck.hpp` | access, checks, fill, `+=`, `-=`, `resize` | `IndexedGrid` sugar |
| `grid/array.{hpp,t}`, `arrayexpression.hpp`, `functions.hpp` | component-wise operations, comparisons, expressions, `crossProduct` | template argument deduction (the unary operators of `arrayexpression.hpp` cannot be called) |
| `grid/field.{hpp,t}` | layout, copies, resize, positions | `FieldFactory`-like wrappers of examples |
| `grid/subgrid.{hpp,t}` | views, writes, arithmetic, resize | |
| `grid/gridtransform.{hpp,t}` | `GridTransformStorage`: views, values, references | its iterators; `GridTransform` cannot be instantiated: `GridBase` needs `StoragePolicy::RangeType`, which `GridTransformStorage` does not have, and the default checking policy has a parameter of another type |
| `grid/boundary.*`, `domainsubdivision.*` | regions, serial exchange and accumulate, extents | |
| `grid/mpisubdivision.*` | process grid, tiling, exchange, accumulate, exchangeData, unique ids, reductions (any order of combination), who holds buffers and communicators | MPI errors; the table of MPI types |
| `grid/domain.hpp`, `vector.hpp` | no | commented out / empty classes |
| `util/factor.cpp`, `databuffer.*`, `unique.hpp`, `singleton.hpp`, `algo.t` | yes | |
| `util/logger.hpp`, `traits.hpp`, `exceptions.*`, `generic/typelist.hpp`, `typetools.hpp` | no | log output; compile-time computations |
| `variables/*` | expressions, functions, variables, blocks, parameters, classes, containers, data, dependencies | lifetime of the C++ objects behind raw pointers; `initParameters` that registers different parameters at each call |
| `parser/*` | scanner and parser with their tables, token actions, positions only as far as reported errors need them | the text of error messages; the lemon trace and error recovery (`Recovery` is an outcome, proved unreachable in the theorems that need it) |
| `diagnostic/diagnostic.*` | schedules, names, files and their contents, the manager, several processes, lifetime | the overload of `parsedFileName` that is never called |
| `diagnostic/hdfdiagnostic.*` | grids as data sets, selections, names, handles, attributes, communicators of the active processes | file format |
| `tools/fieldtools.*`, `literature.*`, `functions.cpp`, `datastream.*` | yes | |
| `examples`, `testsuite` | the loops of `example_mpisub.cpp` | the rest |

## Findings: where the code violates what a user would expect

Those with a theorem name are proved as refutations in the model; the others were noted while reading.

### Ranges, storage, grids
* A loop over an empty range executes its body at least once (`C02_empty_range_iteration_refuted`).
* A range whose upper bound is the largest `int` makes its loops overflow (`C88_iterator`, `C88_forEach_overflow`); `forEach` passes the function object by value, so state kept in it is lost between calls (`C88_counter`).
* The bias of the C-order pointer is computed in signed arithmetic that can overflow (`C07_c_order_bias_overflow_refuted`).
* Assigning a grid leaves its updater with the old data; a later resize of the old data changes it (`C11_assignment_detaches_refuted`), or is undefined behaviour if the grid is gone. `C11_any_assignment_partial`, `C11_dangling_resize` and `C11_foreign_resize` say exactly when this happens.
* With lazy allocation an assigned grid can report more cells than allocated (`C12_lazy_assign_overrun_refuted`).
* Kokkos copies keep their own view after a resize of another copy (`C13_kokkos_copies_refuted`). The implicit assignment of Kokkos grids does not register the target: it keeps its bounds when resized, and its old registration dangles (`C13_kokkos_assignment_refuted`). `C13_any_assignment_partial` says when all is well, `C13_dangling_resize`, `C13_told_bounds`, `C13_untold_bounds` and `C13_separate_values` what happens otherwise.
* `a += b` with a larger `b` and the same storage reads or writes outside (`C16_overrun_refuted`); on grids of equal size but shifted bounds it pairs cells by position in memory.
* Mixed element types in array expressions are computed in the wrong type (`C17_mixed_types_refuted`); comparisons are true with NaN (`C18_nan_refuted`); unary operators on arrays cannot be called (parameters not deducible).
* `crossProduct` with the result aliasing an operand is wrong (`C64_aliased_result_refuted`).
* A default-constructed grid reports bounds [0..0] without an allocation. `Lazy`'s `getLo()` returns a temporary.
* `SubGrid::resize` keeps stale dimensions (`C21_dims_after_resize_refuted`).
* Copies of a field keep their own ghost width after a shared resize (`C19_copy_keeps_ghost_width_refuted`), so a field shows the inner range last asked for exactly when its own ghost width is the one last asked for (`C19_inner_exactly`); `Field()` leaves it uninitialised.
* `positionToIndex(indexToPosition(i))` can be `i-1` in doubles (`C20_binary64_refuted`), with an offset near 1; it is never anything but `i` or `i-1` while the domain lies within 2^40 cells of zero (`C20_round_trip_rounded_partial`).
* `GridTransform` cannot be instantiated.

### Subdivisions
* Ghost width 0: exchange leaves the allocation (`C23_zero_ghosts_refuted`). Narrow domains: exchange is not idempotent (`C24_narrow_domain_refuted`), accumulate wrong (`C25_overlapping_sources_refuted`). The same over MPI: `C27_zero_ghosts_refuted`, `C66_zero_ghosts_refuted`, `C27_narrow_refuted`, `C66_overlapping_refuted`.
* MPI tiling is wrong if the global domain does not start at 0 (`C26_lower_bound_refuted`); extents likewise, in doubles they need not reach the upper end (`C30_upper_end_refuted`), and the serial global domain includes ghost cells (`C30_lower_bound_refuted`, `C30_serial_refuted`). The MPI subdivision adds the ghost width, the serial one does not. `equalFactors` puts the smallest prime factor into the first dimension whatever the weights (`C86_first_dimension_refuted`).
* Integer sums over processes may overflow on the way although the sum fits, depending on the order (`C89_order_integers`).
* The example programs update the field in place, over every second inner cell counted from the lowest of the process: their result depends on the number of processes (`C95_in_place_counterexample`).

### Expressions, scanner, parser
* Mixed chains are grouped by type: `1.5 - 3 - 2` is 0.5 (`C33_left_to_right_refuted`); `C87_grouped_by_type` gives the exact grouping.
* A token or `//` comment filling the 128-byte buffer hangs the scanner (`C37_long_name_refuted`, `C37_long_line_comment_refuted`).
* An illegal character truncates the deck silently; unclosed comments and strings are dropped (`C38_..._refuted`). A `//` comment on the last line without line feed is read as tokens (`C39_last_line_comment_refuted`).
* `e-1` and `E+2` are read as numbers (`C71_name_e_refuted`); `.` alone is a FLOAT.
* The parser's stack of 100 entries is discarded silently on overflow: sums of 50 operands are rejected (`C41_sum_of_fifty_refuted`), some non-sentences accepted (`C40_accepted_no_sentence_refuted`); for texts of decks `C72_fifty_operands_refuted`, `C72_dropped_tokens_refuted`.
* Empty decks and unfinished last statements throw the internal error, not `ParserError` (`C42_early_end_refuted`). A literal out of range lets `boost::bad_lexical_cast` escape.
* A missing closing brace is not detected (`C43_opening_brace_refuted`), the cursor persists into the next parse.

### Variables and blocks
* `BlockVariables::exists` never looks upward and dereferences null at the root (`C45_upward_refuted`).
* A parameter used before its value is given silently has its default (`C48_early_use_refuted`).
* `recreate()` always throws (`C53_recreate_refuted`); `updateAll()` after `update()` can fail its assertion (`C69_update_all_later_refuted`); a constant as independent variable is a null pointer (`C70_constant_independent_refuted`). `resetCounters` works on copies.
* `initAll` from a block at depth 2 or more does not end (`C55_receiver_refuted`). `retrieveData(T*&)` prefers a far pointer datum (`C56_pointer_refuted`). `initAll` twice doubles containers (`C76_twice_refuted`).
* Without an implementation of the root, only the first top-level object is returned (`C74_root_refuted`).
* A scalar parameter called like a component of an array parameter makes both lose the value in the deck, silently (`C97_clash_refuted`). `ParametersGroup::hasElements` erases a range of iterators of another set (undefined; never called).
* `HdfStream::open` with fewer active processes: an input stream opened a second time without a new `setActive` waits for the processes that are not active (`commSet` stays false, and the communicator goes back to MPI_COMM_WORLD, `C98_second_open_refuted`); an output stream keeps in its property list the communicator of its first open (`C98_change_refuted`); a process that alone calls `setActive`, even with the value it has, waits for ever (`C98_one_call_refuted`). The copy constructor of `HdfOStream` copies `initialised` but not the property lists; opening a file with such a copy of an initialised stream uses an indeterminate list (not modelled). `H5Fclose` and the collective writes run on the communicator of the open and are not modelled in C98.
* `registerBlock` of a class that is known already (also by `blocks("name")`) throws away its children and its C++ class, and references obtained before dangle (`C99_again_refuted`).
* `min` and `max` with NaN depend on the order of the arguments (`C96_nan_refuted`).
* `addParameter` with an existing name silently drops the parameter and prints "test4". `int a:b = 3;` declares an unreachable variable. `int a;` is an error. A variable from an expression holds `int 0` until evaluated. A second parse re-adds root parameters that are ignored. `updateAll` swallows exceptions.

### Diagnostics, tools
* Interval 0 divides by zero (`C58_zero_refuted`). Late starts of delta-time diagnostics catch up (`C59_late_start_refuted`); `adjustDeltaT` overshoots in doubles (`C59_adjusted_double_refuted`).
* `#p#t` gives colliding names (`C60_adjacent_refuted`); append mode uses the name pattern unreplaced (`C60_append_refuted`), and is never opened when a run does not start at 0 (`C77_restart_refuted`).
* `execute` with only one kind of time source dereferences null (`C61_null_pointer_refuted`). Single-output diagnostics make processes disagree on the step (`C78_single_output_refuted`). Diagnostics never deregister: after one is destroyed `execute` is undefined (`C94_destroyed_refuted`). Text output that appends is lost without step 0 and after a second step 0 (`C90_restart_refuted`, `C90_step_zero_again_refuted`).
* `DataBuffer` of 2 GB overflows `int` (`C31_large_refuted`). `FieldFiller::set` keeps a function-static adder (`C79_two_fillers_refuted`). Schools and organizations are stored as editions (`C63_misplaced_refuted`). `irand(range)` can return `range` (`C65_last_draw_refuted`). `mean` of an empty range divides by zero (`C83_empty_refuted`); the mean of ten doubles 0.1 is below 0.1 (`C83_doubles_between_refuted`).
* HDF: Fortran-order grids are scrambled (`C81_fortran_refuted`); the serial build writes ghost cells and its file has the dimensions of the grid (`C81_serial_refuted`); block name `rho` + counter collides with `rho1` (`C82_names_refuted`). Append mode reuses "data" and aborts at the second output (`C91_append_refuted`). `readGrid` ignores `active`; attributes keep pointers (`C93_dangling`); `open` leaks the previous file (`C92_reopen_refuted`); copies close twice (`C92_copy_refuted`); the container keeps the local bounds of the time of `init` after a resize: cells are missing or the output aborts (`C100_resized_refuted`).
* Literature: `writeBibTex` neither escapes nor checks: a key with a comma or a value with an opening brace spoils the file, a value with a closing brace turns into other fields (`C101_unchecked_refuted`).
* `FunctionNotFoundException`, `WrongNumberOfArgsException`, `TypeCastException`, `TypeMismatchException` and `boost::bad_lexical_cast` escape `Parser::parse` without file name or line, unlike all other errors in a deck (`C103_no_place_refuted`).
* **C104_unconverted_refuted** — `int i = 3; i = title;` with `title` a string of the program that is not a number: the conversion fails when the deck is finished, the exception is swallowed there, the deck is accepted and `i` is 0.
* **C106_own_bounds_refuted** — `grid.resize(grid.getHi(), high)`: `resizeImpl` sets the range of the grid before it reads its reference arguments again, so that a grid 2..5 resized with `resize(grid.getHi(), {9})` becomes 9..9 instead of 5..9, and accesses inside the bounds asked for leave the memory. Likewise `grid.resize(low, grid.getLo())`.
* **C107_written_refuted** — `group.add(param)` then `n = 7;` in the deck: `Variable::operator=` takes over the unique id of the right-hand side, so that `group.isElement(param)` is false from then on.
* **C107_has_elements_refuted** — `ParametersGroup::hasElements` erases from one set with iterators of another: undefined behaviour for every group that is not empty.
- **C112: the cells are not shared out evenly.** `init` divides [high - 1] by the number of processes instead of the number of cells (mpisubdivision.t:107), so that the first process and, more so, the last get the remainder: 63 cells on 4 processes are 16, 15, 15 and 17 (C112_uneven_refuted), and of 4 cells on 4 processes one process has none (C112_idle_refuted).
- **C111: all references into transformed views are one.** [GridTransformStorage::get] returns a reference to a static variable (gridtransform.hpp:81-86) that all views of the type share: of two references both show the value obtained last (C111_two, C111_references_refuted). [GridTransform] gives the storage the value type of the base grid, not that of the transformation (gridtransform.hpp:134-145), so that results would be converted to it; [TypeCastTransform::operator()] is not const and could not be used for const views (gridtransform.hpp:188).
- **C110: HDF streams hang when the active processes change (see also C98).** [HdfOStream::open] puts the communicator into its property list at the first opening only (hdfdiagnostic.cpp:285-316), so once some processes have opened a file, no different set that shares a process with them can (C110_writer_change). [makeMPIGroup] does not set [commSet] when it makes a group (hdfdiagnostic.cpp:134-141,175), so a reader that opens a second file without a new [setActive] uses MPI_COMM_WORLD although not all processes take part (C110_reader_again). [readGrid] does not look at [active] and aborts inactive processes (C110_inactive; hdfdiagnostic.t:53-111), and attributes are lost if process 0 is not active (C110_attributes_refuted; hdfdiagnostic.t:297-323). The groups and communicators are never freed.
- **C109: copies of an initialised MPI subdivision release its buffers twice.** [MPICartSubdivision] has raw pointers and a destructor, and neither a copy constructor nor an assignment operator (mpisubdivision.hpp:80-88): after one of two copies is destroyed the other can neither exchange nor be destroyed (C109_copied, C109_assigned). A second [init] overwrites the buffers and the communicator without releasing them (mpisubdivision.t:83,126-127), so they are never released (C109_held_partial, C109_balanced_refuted).

## Seeded bugs

`seeded/LOG.jsonl` lists edits of the model made in a scratch copy, the claim each breaks, the theorems that
failed and those tightened after a survivor.
