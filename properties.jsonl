{"id": "C01", "title": "Range iteration is exact and row-major", "statement": "Iterating a Range from begin() to end() over a range with lo<=hi in every dimension visits every index with lo<=i<=hi exactly once and nothing else, in lexicographic order with the last dimension running fastest, and the loop ends.", "quantifier": "all ranks >= 1 and all integer bounds lo, hi with lo<=hi componentwise", "why_tests_cant": "rank and bounds are unbounded; a carry error shows only for particular shapes, ranks and boundary positions", "anchors": ["src/grid/range.hpp: Range::iterator::increment, begin, end"]}
{"id": "C02", "title": "Iterating an empty Range visits nothing", "statement": "Iterating a Range whose hi is below lo in some dimension executes the loop body zero times.", "quantifier": "all ranks and all bounds with hi<lo in some dimension", "why_tests_cant": "degenerate shapes such as a subdomain thinner than its ghost layer are rarely in test fixtures", "anchors": ["src/grid/range.hpp: Range::iterator::increment, begin, end"]}
{"id": "C03", "title": "forEach visits each index of its range exactly once", "statement": "RangeCIterationPolicy::forEach and RangeFortranIterationPolicy::forEach call the function for every index of the range exactly once, in row-major respectively column-major order, and zero times when the range is empty.", "quantifier": "all ranks >= 1, all bounds (including empty ranges), all functions", "why_tests_cant": "template recursion over rank: every rank is a different program", "anchors": ["src/grid/iteration/range-iteration.hpp: RangeCIterationPolicy::forEach, RangeFortranIterationPolicy::forEach"]}
{"id": "C04", "title": "Range membership, grow and projection", "statement": "Range::inside(p) holds exactly for the indices the range iteration visits; grow widens the range by the given amount on each side so that p is inside the grown range iff it is within that distance; projecting a range drops exactly the requested dimension, and a projected point is inside the projected range iff the point satisfies the bounds in the remaining dimensions.", "quantifier": "all ranks, bounds, points, grow amounts, projected dimensions", "why_tests_cant": "an off-by-one in one dimension is visible only at the edge of that dimension", "anchors": ["src/grid/range.hpp: inside, grow, project, projectDim", "src/grid/array.t: project, projectDim"]}
{"id": "C05", "title": "C-order storage is an in-bounds bijection", "statement": "For a grid in C order with lo<=hi, the element address computed for an index inside the range lies inside the allocated block, two different indices never share an address, every allocated element is the address of some index, and increasing the last index by one moves by one element.", "quantifier": "all ranks, all bounds for which the index arithmetic fits 64 bits (the wrap-around case is C07), all pairs of indices", "why_tests_cant": "injectivity and exact coverage are statements about all pairs of indices for every shape", "anchors": ["src/grid/gridstorage/single-array-storage-base.hpp: SingleArrayGridCOrderStorageBase::get, resize, updateDataFast, stride"]}
{"id": "C06", "title": "Fortran-order storage is an in-bounds bijection", "statement": "Same for Fortran order: addresses are in bounds, injective and exhaustive, and increasing the first index by one moves by one element.", "quantifier": "all ranks, all bounds whose element count fits the address type, all pairs of indices", "why_tests_cant": "injectivity and exact coverage are statements about all pairs of indices for every shape", "anchors": ["src/grid/gridstorage/single-array-storage-base.hpp: SingleArrayGridFortranOrderStorageBase::get, resize, updateDataFast, stride"]}
{"id": "C07", "title": "Addressing survives wrap-around of the bias pointer", "statement": "The pre-computed biased origin pointer may be far outside the allocation and its computation may wrap in the unsigned/pointer-difference types; the final address of an in-range index is nevertheless the exact row-major (column-major) position, as long as the element count itself is representable.", "quantifier": "all lower bounds, positive or negative, of any magnitude representable as int, with arithmetic modulo 2^64", "why_tests_cant": "wrap-around needs extreme offsets that cannot be allocated in a test", "anchors": ["src/grid/gridstorage/single-array-storage-base.hpp: updateDataFast, get"]}
{"id": "C08", "title": "Strides address neighbours", "statement": "For each dimension d, the address of an index plus one in dimension d equals its address plus stride(d), in both storage orders.", "quantifier": "all ranks, dimensions, shapes and indices", "why_tests_cant": "per-dimension products differ for every shape", "anchors": ["src/grid/gridstorage/single-array-storage-base.hpp: stride"]}
{"id": "C09", "title": "A grid is a map from index to value", "statement": "After any sequence of element writes, resizes excluded, reading any in-range index returns the value last written to that index and is unaffected by writes to other indices.", "quantifier": "all shapes, both storage orders, all histories of writes and reads", "why_tests_cant": "aliasing between two cells depends on the shape and on the pair of indices", "anchors": ["src/grid/grid.t: operator[], operator()", "src/grid/gridstorage/single-array-storage-base.hpp: get"]}
{"id": "C10", "title": "Copies of a grid share data and always agree on the shape", "statement": "Grids obtained from each other by copy construction refer to the same data: after any history of copies, resizes and destructions, all live copies of a grid report the same bounds and address the same live allocation, which is large enough for these bounds.", "quantifier": "all histories of create / copy / resize / destroy / write over any number of grids", "why_tests_cant": "the state space of alias sets is unbounded; errors depend on the order of copy, resize and destruction", "anchors": ["src/grid/gridstorage/single-array-allocation.hpp: SingleArrayInstantAllocation, SingleArrayData::updaters"]}
{"id": "C11", "title": "Assigning a grid detaches it from its previous data", "statement": "After `a = b` the grid a belongs to the data of b only: a later resize of a grid that still shares the old data of a does not change a, and destroying a leaves no reference to it.", "quantifier": "all histories of create / copy / assign / resize / destroy", "why_tests_cant": "requires a particular interleaving of assignment, resize and destruction", "anchors": ["src/grid/gridstorage/single-array-allocation.hpp: SingleArrayInstantAllocation::operator=, updateSizeInfo"]}
{"id": "C12", "title": "Lazy allocation always has room", "statement": "With lazy allocation the allocated capacity is at least the number of elements of the current shape after every resize, for any history of resizes, so every in-range access is inside the allocation.", "quantifier": "all histories of construct / copy / assign / resize, all sizes", "why_tests_cant": "the reallocation decision depends on a running average and variance of the whole history", "anchors": ["src/grid/gridstorage/single-array-allocation.hpp: SingleArrayLazyAllocation::resizeImpl, newData, operator="]}
{"id": "C13", "title": "Kokkos copies stay consistent", "statement": "Copies of a Kokkos-backed grid share bounds and values like those of other grids: what is written through one is read through the others, a resize through one is seen by all, every index inside the reported bounds is inside the allocation, and assignment detaches a grid from its old copies.", "quantifier": "all histories of construct / copy / assign / resize / destroy / read / write", "why_tests_cant": "needs a copy to outlive a resize through another handle", "anchors": ["src/grid/gridstorage/kokkos-storage.hpp: resize, update, updateSizeInfo, get"]}
{"id": "C14", "title": "Debug checking clamps and reports", "statement": "GridDebugCheck returns, for every index, an index inside the grid; it returns the index unchanged and leaves the error flag alone exactly when the index was inside; otherwise the flag is set and the offending index is recorded. GridAssertCheck passes exactly the in-range indices.", "quantifier": "all ranks, bounds, and indices", "why_tests_cant": "out-of-range combinations over several dimensions", "anchors": ["src/grid/gridcheck.hpp: GridNoArgCheck, GridAssertCheck, GridDebugCheck"]}
{"id": "C15", "title": "Whole-grid assignment and arithmetic are element-wise", "statement": "grid = v sets every in-range cell to v; a += b and a -= b between grids of the same bounds combine each cell with the cell of the same index, whichever storage orders the two grids use, and change nothing else.", "quantifier": "all shapes, all contents, both storage orders for either operand", "why_tests_cant": "mixing storage orders pairs up different linear positions", "anchors": ["src/grid/grid.t: operator=, operator+=, operator-="]}
{"id": "C16", "title": "Grid arithmetic never leaves the allocations", "statement": "a += b with grids of different sizes does not access memory outside either allocation.", "quantifier": "all pairs of shapes", "why_tests_cant": "out-of-bounds reads often go unnoticed when run", "anchors": ["src/grid/grid.t: operator+=, operator-="]}
{"id": "C17", "title": "Array expressions are element-wise and alias-safe", "statement": "Assigning an arithmetic array expression to an array stores, in each component, the value of the expression on the components of that index as they were before the assignment, even if the target occurs in the expression; compound assignment likewise.", "quantifier": "all lengths, all expression trees, all aliasing patterns", "why_tests_cant": "expression trees are unbounded and each is a different template instantiation", "anchors": ["src/grid/arrayexpression.hpp: ArrayExpression, ArrayBinaryOp, ArrayUnaryOp, Array::operator="]}
{"id": "C18", "title": "Array comparison operators", "statement": "On arrays == is an equivalence, <= a partial order, and < and <= hold iff they hold in all components; product() and sum() are the product and the sum of all components.", "quantifier": "all lengths and contents", "why_tests_cant": "universally quantified algebraic laws", "anchors": ["src/grid/array.t: operator==, operator!=, operator<, operator<=, product, sum, sqr"]}
{"id": "C19", "title": "Field ghost layout", "statement": "A field created from a size or from inner bounds and g ghost cells has exactly the requested inner range, its index range extends the inner range by g cells on every side, and every inner cell is inside the field.", "quantifier": "all ranks, sizes, bounds, ghost widths, including resize after construction", "why_tests_cant": "several constructor and resize overloads times all ranks", "anchors": ["src/grid/field.t: Field::Field, resize", "src/grid/field.hpp: getInnerLo, getInnerHi, getInnerRange"]}
{"id": "C20", "title": "Field index/position round trip", "statement": "positionToIndex(indexToPosition(i)) returns the index i (with in-cell offset zero) for every index and stagger.", "quantifier": "all ranks, ranges, ghost widths, staggers, indices, physical domains", "why_tests_cant": "floating point rounding at particular sizes only", "anchors": ["src/grid/field.t: positionToIndex, indexToPosition"]}
{"id": "C21", "title": "Sub-grid views are confined", "statement": "Filling or writing a SubGrid changes the base grid at exactly the indices of the sub-range and at no other index; reads through the view return the base grid's values; the reported dimensions match its bounds.", "quantifier": "all base shapes, sub-ranges, contents; histories including resize of the view", "why_tests_cant": "frame condition over all cells", "anchors": ["src/grid/subgrid.hpp", "src/grid/subgrid.t: SubGrid, GridStorage resize"]}
{"id": "C22", "title": "Ghost and inner regions partition the local domain", "statement": "For each dimension the low ghost, high ghost and inner slab are pairwise disjoint and cover the local domain, when the local extent is at least twice the ghost width; each ghost source region has the same shape as the opposite ghost region and lies in the inner slab when the inner extent is at least the ghost width.", "quantifier": "all ranks, bounds, ghost widths, dimensions", "why_tests_cant": "exact coverage over all cells", "anchors": ["src/grid/boundary.t: getGhostDomain, getGhostSourceDomain, getInnerDomain"]}
{"id": "C23", "title": "Serial exchange implements periodic wrapping", "statement": "After SerialSubdivision::exchange(grid) over all dimensions, every cell of the local domain, including edges and corners, holds the value the inner cell at its periodic image had before the call; inner cells are unchanged.", "quantifier": "all ranks, bounds with inner extent >= ghost width, contents", "why_tests_cant": "corners are right only because of the order of the dimensions; every rank has different corners", "anchors": ["src/grid/domainsubdivision.t: SerialSubdivision::exchange", "src/grid/domainsubdivision.hpp: exchange(grid)"]}
{"id": "C24", "title": "Exchange is idempotent", "statement": "Exchanging twice equals exchanging once.", "quantifier": "all ranks, bounds, contents", "why_tests_cant": "universally quantified over contents", "anchors": ["src/grid/domainsubdivision.t: SerialSubdivision::exchange"]}
{"id": "C25", "title": "Serial accumulate sums periodic images", "statement": "After accumulate in a dimension every ghost cell and its source cell hold the sum of the two values they had before, and cells in neither are unchanged.", "quantifier": "all ranks, bounds, contents", "why_tests_cant": "overlap of the low and high source regions happens only for thin domains", "anchors": ["src/grid/domainsubdivision.t: SerialSubdivision::accumulate"]}
{"id": "C26", "title": "MPI subdivision tiles the global domain", "statement": "For every process grid the inner domains of all processes are pairwise disjoint and their union is the global domain.", "quantifier": "all global bounds, process counts, factorizations, coordinates", "why_tests_cant": "requires all process counts and all rounding situations of the width", "anchors": ["src/grid/mpisubdivision.t: MPICartSubdivision::init"]}
{"id": "C27", "title": "MPI exchange delivers neighbour data", "statement": "After exchange on all processes every ghost cell of each process holds the inner value of the process that owns that (periodically wrapped) global cell.", "quantifier": "all process grids, shapes, contents", "why_tests_cant": "distributed state; tests run at a handful of process counts", "anchors": ["src/grid/mpisubdivision.t: exchange"]}
{"id": "C28", "title": "Process unique ids are unique", "statement": "getUniqueId returns different values on different processes of the Cartesian grid.", "quantifier": "all process grids and all pairs of processes", "why_tests_cant": "pairs of processes over unbounded grids", "anchors": ["src/grid/mpisubdivision.t: getUniqueId"]}
{"id": "C29", "title": "equalFactors returns a factorization", "statement": "equalFactors(n, k, f, w) returns k positive factors whose product is n, for every n>=1, k>=1 and all weights; it terminates.", "quantifier": "all n >= 1, k >= 1, weights", "why_tests_cant": "number theoretic statement for all n", "anchors": ["src/util/factor.cpp: equalFactors, factorize, makePrimes, distribute"]}
{"id": "C30", "title": "Inner extents tile the physical domain", "statement": "The physical extents returned by getInnerExtent on the processes of a subdivision tile the global extent, and the i-th cell of the global grid lies at its own physical position, whatever the global grid's lower bound is.", "quantifier": "all global extents, bounds, subdivisions", "why_tests_cant": "lower bounds different from zero and ghost handling differ between serial and parallel subdivisions", "anchors": ["src/grid/domainsubdivision.hpp: getInnerExtent, SerialSubdivision::getGlobalDomain"]}
{"id": "C31", "title": "Data buffers round-trip", "statement": "Copying a container into a DataBuffer and iterating over the buffer yields the same elements in the same order.", "quantifier": "all container contents and element sizes", "why_tests_cant": "universally quantified over contents", "anchors": ["src/util/databuffer.hpp", "src/util/databuffer.t: makeBuffer, iterator"]}
{"id": "C32", "title": "Arithmetic follows the usual precedence and associativity", "statement": "An arithmetic expression in a deck whose operands all have the same numeric type evaluates to the conventional mathematical reading: unary minus, ^, * and / left to right, + and - left to right, parentheses.", "quantifier": "all expression trees over one numeric type, all operand values", "why_tests_cant": "expression trees of unbounded depth; the parse tree is right-recursive and is re-associated by construction", "anchors": ["parser/deckgrammar.y", "src/variables/expression.hpp: BinaryOp", "src/variables/operators.hpp"]}
{"id": "C33", "title": "Mixed int/float chains are left-associative too", "statement": "Chains of - and / (and * with /) mixing int and float operands are evaluated left to right.", "quantifier": "all chains mixing types", "why_tests_cant": "only particular type patterns along a chain", "anchors": ["src/variables/expression.hpp: BinaryOp, TypecastOp", "src/parser/parsertoken.t: TypePromoter, BinaryOperatorVisitor"]}
{"id": "C34", "title": "Promotion chooses the larger type and never fails", "statement": "The type of a binary expression is the larger of the operand types in the order int < float < string, and promotion of the operands never fails; assignment converts to the declared type of the variable.", "quantifier": "all operand types and expressions", "why_tests_cant": "closure over all expression trees", "anchors": ["src/parser/parsertoken.t: TypePromoter, TypePromoterAssign, BinaryOperatorVisitor"]}
{"id": "C35", "title": "Constant expressions and dependencies are sound", "statement": "If an expression is reported constant, its value does not depend on any external or changeable variable; and an expression's value only depends on the variables reported by getDependencies.", "quantifier": "all expression trees and all pairs of states", "why_tests_cant": "non-interference over all states", "anchors": ["src/variables/expression.hpp: isConstant, getDependencies", "src/variables/function_expression.hpp: isConstant, getDependencies"]}
{"id": "C36", "title": "Tokenisation is independent of the buffer boundaries", "statement": "The token sequence of a deck whose tokens are shorter than the scan buffer does not depend on where the 128 byte buffer boundaries fall: it equals the token sequence of scanning the whole text at once.", "quantifier": "all input texts with tokens shorter than the buffer, all chunkings", "why_tests_cant": "boundary positions times token kinds", "anchors": ["src/parser/internal/deckscanner.cpp: do_scan", "parser/deckscanner.rl"]}
{"id": "C37", "title": "Scanning always terminates", "statement": "Scanning any finite input terminates.", "quantifier": "all input texts", "why_tests_cant": "inputs with very long tokens are not in test decks", "anchors": ["src/parser/internal/deckscanner.cpp: do_scan"]}
{"id": "C38", "title": "Nothing in a deck is silently ignored", "statement": "If scanning and parsing a deck succeed without error then every character that is not white space or inside a comment contributed to a token that was parsed.", "quantifier": "all input texts", "why_tests_cant": "any illegal character at any position", "anchors": ["src/parser/internal/deckscanner.cpp: do_scan", "src/parser/deckscanner.hpp: scan"]}
{"id": "C39", "title": "Comments have no effect", "statement": "A comment, single line or block, anywhere between tokens, including at the very end of the file, does not change the token sequence.", "quantifier": "all decks and all insertion points and comment contents", "why_tests_cant": "end-of-file handling and comment contents", "anchors": ["parser/deckscanner.rl", "src/parser/internal/deckscanner.cpp: do_scan"]}
{"id": "C40", "title": "The parser accepts only decks of the grammar", "statement": "If parsing succeeds, the token sequence is a sentence of the published grammar, and the semantic actions are executed in the order of its unique derivation.", "quantifier": "all token sequences", "why_tests_cant": "generated tables; all token sequences", "anchors": ["src/parser/deckgrammar.inc: yy_action, yy_reduce, Parse", "parser/deckgrammar.y"]}
{"id": "C41", "title": "The parser accepts every deck of the grammar", "statement": "Every sentence of the grammar is accepted, whatever the length and nesting of its expressions.", "quantifier": "all sentences", "why_tests_cant": "the parser stack is bounded; depth is unbounded", "anchors": ["src/parser/deckgrammar.inc: Parse, yy_shift, yyStackOverflow, YYSTACKDEPTH"]}
{"id": "C42", "title": "Every syntax error is reported as a ParserError", "statement": "Any token sequence that is not a sentence of the grammar makes Parser::parse throw ParserError.", "quantifier": "all token sequences", "why_tests_cant": "error position: also at end of input", "anchors": ["src/parser/parser.cpp: parse", "src/parser/deckgrammar.inc: yy_syntax_error"]}
{"id": "C43", "title": "Blocks are balanced", "statement": "A deck with an unmatched closing brace and a deck with an unmatched opening brace are both rejected.", "quantifier": "all decks", "why_tests_cant": "all nestings", "anchors": ["src/parser/parsertoken.cpp: createBlock, endBlock", "src/variables/variables.cpp: VariableStorage"]}
{"id": "C44", "title": "Variable lookup finds the innermost declaration", "statement": "Looking up a plain name finds the variable in the nearest enclosing block that declares it, and fails exactly when no enclosing block does; a path name is resolved from the nearest enclosing block that has a child of the first component.", "quantifier": "all block trees, positions and names", "why_tests_cant": "all tree shapes and shadowing patterns", "anchors": ["src/variables/variables.cpp: BlockVariables::getVariable, VariableStorage"]}
{"id": "C45", "title": "exists and getVariable agree", "statement": "exists(name) is true exactly if getVariable(name) returns a variable, for both local and upward lookup.", "quantifier": "all block trees and names", "why_tests_cant": "all tree shapes", "anchors": ["src/variables/variables.cpp: BlockVariables::exists, getVariable"]}
{"id": "C46", "title": "Declarations never overwrite", "statement": "A declaration in a deck either creates a new variable in the current block or is rejected; the type of an existing variable never changes and read-only variables never change value, for any sequence of deck statements.", "quantifier": "all statement histories", "why_tests_cant": "invariant over histories", "anchors": ["src/parser/parsertoken.cpp: storeVariable, updateVariable, ensureVariable", "src/variables/variables.cpp: Variable::operator="]}
{"id": "C47", "title": "The block tree mirrors the deck nesting", "statement": "For any nesting of blocks, of classes with and without a registered implementation, the created block objects form exactly the nesting of the deck: each is a child of the object of the innermost enclosing block that has one, in deck order.", "quantifier": "all nestings, all subsets of registered classes", "why_tests_cant": "mixed nesting depth bookkeeping", "anchors": ["src/variables/block.cpp: BlockTree::addChild, moveDown, moveUp", "src/parser/parsertoken.cpp: createBlock, endBlock"]}
{"id": "C48", "title": "A value is only used after it has been given", "statement": "If a deck uses a block parameter in an expression before giving it a value, parsing fails or the expression sees the value finally given.", "quantifier": "all decks", "why_tests_cant": "order of statements", "anchors": ["src/variables/blockparameters.hpp: addParameter", "src/parser/parsertoken.cpp: evaluateVisitor, updateVariable"]}
{"id": "C49", "title": "Updates are evaluated in dependency order", "statement": "The update order computed for any set of independent variables and requested parameters lists every variable that lies on a path from an independent variable to a requested one exactly once and after all listed variables it depends on.", "quantifier": "all acyclic dependency graphs, all choices of independent and dependent variables", "why_tests_cant": "graph shapes are unbounded; ordering errors show for few graphs", "anchors": ["src/variables/dependencies.cpp: makeUpdatePredecessors, makeUpdateFollowers, makeUpdateOrder"]}
{"id": "C50", "title": "After update() dependents are up to date", "statement": "After changing independent variables and calling update(), every requested parameter equals the value of its defining expression under the current values of the independent variables.", "quantifier": "all acyclic graphs, all values, all histories of updates", "why_tests_cant": "value correctness needs the ordering for all graphs", "anchors": ["src/variables/dependencies.hpp: DependencyUpdater::update", "src/variables/dependencies.cpp"]}
{"id": "C51", "title": "Updates touch only what they must", "statement": "update() changes only variables that depend on the chosen independent variables and on which a requested parameter depends.", "quantifier": "all graphs, all choices", "why_tests_cant": "frame condition over all variables", "anchors": ["src/variables/dependencies.cpp: makeUpdateFollowers, makeUpdateOrder"]}
{"id": "C52", "title": "Reassignment never breaks the dependency graph", "statement": "Any deck accepted by the parser has an acyclic dependency graph, so the update order exists.", "quantifier": "all decks", "why_tests_cant": "needs reassignment of a variable that already depends on a changeable variable", "anchors": ["src/parser/parsertoken.cpp: updateVariable", "src/variables/dependencies.cpp: makeUpdateOrder"]}
{"id": "C53", "title": "The dependency map can be rebuilt", "statement": "DependencyMap::recreate() rebuilds the map after the variables changed.", "quantifier": "all variable trees", "why_tests_cant": "stateful container re-use", "anchors": ["src/variables/dependencies.hpp: recreate", "src/variables/dependencies.cpp: constructMapRecursive"]}
{"id": "C54", "title": "fill_field evaluates the expression at each cell", "statement": "fill_field stores in every cell of the field, ghosts included, the value of the dependent parameter evaluated at the physical position of that cell.", "quantifier": "all shapes, staggers, expressions", "why_tests_cant": "all cells times all expressions", "anchors": ["src/tools/fieldtools.t: fill_field", "src/tools/fieldtools.hpp: FieldFiller"]}
{"id": "C55", "title": "Initialisation runs phase by phase over all blocks", "statement": "initAll runs registerData on every block, then preInit on every block, then init, then postInit, each exactly once per block and parents before their children.", "quantifier": "all block trees, any block in the tree as the receiver of initAll", "why_tests_cant": "all tree shapes and starting points", "anchors": ["src/variables/block.cpp: initAll, registerDataHierarchy, preInitHierarchy, initHierarchy, postInitHierarchy"]}
{"id": "C56", "title": "Shared data lookup finds the nearest unambiguous datum", "statement": "retrieveData returns the datum of that key in the nearest enclosing block that registered it; ambiguous keys are reported, never silently resolved.", "quantifier": "all block trees, keys, registrations", "why_tests_cant": "all tree shapes", "anchors": ["src/variables/block.hpp: getData, retrieveData", "src/variables/blockdata.hpp"]}
{"id": "C57", "title": "Function calls check arity and keep argument order", "statement": "Calling a registered function with a number of arguments different from its arity is rejected; otherwise it receives the converted arguments in order.", "quantifier": "all registered arities and argument lists", "why_tests_cant": "all arities", "anchors": ["src/variables/function_expression.hpp: FunctionExpression, FunctionRegistry", "src/parser/parsertoken.cpp: assignFunction"]}
{"id": "C58", "title": "Interval diagnostics fire on multiples", "statement": "For a time counter running over consecutive steps an interval diagnostic writes exactly at the multiples of its interval.", "quantifier": "all intervals >= 1 and all numbers of steps", "why_tests_cant": "all step counts", "anchors": ["src/diagnostic/diagnostic.cpp: IntervalDiagnostic::execute"]}
{"id": "C59", "title": "Delta-time diagnostics write once per period", "statement": "When time advances in steps not longer than the output period, a delta-time diagnostic writes exactly once per period, numbers the outputs consecutively, and never before its scheduled time; adjusting the time step with adjustDeltaT makes the step never jump past the next output time.", "quantifier": "all step sequences and periods", "why_tests_cant": "histories of steps of arbitrary lengths", "anchors": ["src/diagnostic/diagnostic.cpp: DeltaTimeDiagnostic::execute, DiagnosticManager::adjustDeltaT"]}
{"id": "C60", "title": "Output file names are distinct", "statement": "Two outputs of a diagnostic at different times or on different processes go to different files if the name pattern contains both place holders.", "quantifier": "all patterns, ranks, counts", "why_tests_cant": "particular digit combinations only", "anchors": ["src/diagnostic/diagnostic.cpp: parsedFileName"]}
{"id": "C61", "title": "Executing the diagnostic manager is safe", "statement": "DiagnosticManager::execute does not dereference an unset time source whatever mix of diagnostics and time sources has been configured.", "quantifier": "all configurations", "why_tests_cant": "configuration combinations", "anchors": ["src/diagnostic/diagnostic.cpp: DiagnosticManager::execute"]}
{"id": "C62", "title": "Literature references are de-duplicated, descriptions are kept", "statement": "Adding references in any order yields each key once in the bibliography with the first data, and each distinct description exactly once.", "quantifier": "all sequences of additions", "why_tests_cant": "all histories", "anchors": ["src/tools/literature.cpp: LiteratureManager::addReference, writeInformation, writeBibTex"]}
{"id": "C63", "title": "Bibliography constructors keep their arguments", "statement": "A literature object constructed with a school or organization reports it in the corresponding BibTeX field.", "quantifier": "all constructor arguments", "why_tests_cant": "many near-identical constructors", "anchors": ["src/tools/literature.hpp"]}
{"id": "C64", "title": "Cross product", "statement": "crossProduct(result,a,b) stores the vector product of a and b; also when result is the same object as an operand.", "quantifier": "all vectors, all aliasings", "why_tests_cant": "aliasing is not visible in the signature", "anchors": ["src/functions.hpp: crossProduct"]}
{"id": "C65", "title": "Random integers are below the range", "statement": "irand(range) returns a value in 0..range-1.", "quantifier": "all outcomes of the underlying generator", "why_tests_cant": "the extreme outcome has negligible probability in a test", "anchors": ["src/functions.cpp: drand, irand"]}
{"id": "C66", "title": "Distributed accumulation sums all copies", "statement": "After accumulate(grid) on all processes of a distributed subdivision every cell of every local domain holds the sum of the values that all copies of the same global cell had before, on all processes, whatever the order in which processes send and receive; no schedule deadlocks.", "quantifier": "all process grids, domains, ghost widths, contents and schedules", "why_tests_cant": "depends on the schedule and on the shape of the process grid", "anchors": ["src/grid/mpisubdivision.t: MPICartSubdivision::accumulate", "src/grid/domainsubdivision.hpp: DomainSubdivision::accumulate"]}
{"id": "C67", "title": "Distributed exchange of data buffers", "statement": "exchangeData(dim, orientation, in, out) leaves in out exactly the bytes the neighbour passed as in, whatever their number, and leaves in unchanged.", "quantifier": "all process grids, buffer contents and schedules", "why_tests_cant": "depends on the schedule; sizes differ between processes", "anchors": ["src/grid/mpisubdivision.t: MPICartSubdivision::exchangeData"]}
{"id": "C68", "title": "Boundary cells of fields respect staggering", "statement": "The view of the boundary cells of a field in a direction covers exactly the cells of the domain whose position (index, or index plus one half for a staggered field) lies strictly outside the box covered by the inner cells on that side; for unstaggered fields and for plain grids these are the ghost cells.", "quantifier": "all domains, ghost widths, dimensions, sides and staggerings", "why_tests_cant": "all shapes and widths; off-by-one errors show up only for particular staggerings", "anchors": ["src/grid/boundary.t: Boundary::getBoundaryDomain, getGhostBoundary"]}
{"id": "C69", "title": "updateAll() brings every variable up to date", "statement": "DependencyMap::updateAll(), called at any time, gives every non-constant variable whose expression can be evaluated the value of its expression and leaves constants alone.", "quantifier": "all acyclic decks, all points in a history of updates", "why_tests_cant": "all graphs and histories", "anchors": ["src/variables/dependencies.cpp: DependencyMap::updateAll, makeUpdateOrder"]}
{"id": "C70", "title": "Any read-only parameter can be chosen as independent variable", "statement": "DependencyUpdater accepts every read-only parameter, constant or not, as independent variable; update() then works for every set of dependents.", "quantifier": "all decks and choices", "why_tests_cant": "depends on which variables are constant and which of them are reached", "anchors": ["src/variables/dependencies.cpp: DependencyUpdater::addIndependent, makeUpdatePredecessors, makeUpdateFollowers"]}
{"id": "C71", "title": "Names are not glued to operators", "statement": "A name in an input deck that is followed by an operator or a bracket is always read as that name: writing an expression with or without blanks around its operators makes no difference.", "quantifier": "every name, every operator and every text that follows", "why_tests_cant": "A test tries a few names; the exponent syntax of numbers interacts with particular names only (e and E).", "anchors": ["parser/deckscanner.rl", "src/parser/internal/deckscanner.cpp: DeckScanner::do_scan"]}
{"id": "C72", "title": "A deck does what its statements say, in order", "statement": "Parsing a deck has exactly the effect of executing its statements one by one in the order written: declarations, assignments, beginnings and ends of blocks; the first statement that fails is the one reported; a deck that is accepted is such a list of statements.", "quantifier": "every deck, every state of the parser it is parsed with", "why_tests_cant": "all lists of statements and nestings; the effect is spread over the generated parser, its stack of tokens and the actions", "anchors": ["src/parser/parser.cpp: Parser::parse", "parser/deckgrammar.y", "src/parser/parsertoken.cpp"]}
{"id": "C73", "title": "Restricted blocks", "statement": "If block classes are restricted, every block of a deck that is parsed without error is of a class that was declared as an allowed child of the class of the block around it.", "quantifier": "every deck, every set of block classes", "why_tests_cant": "all nestings of classes", "anchors": ["src/parser/parsertoken.cpp: ParserToken::createBlock", "src/variables/blockclasses.cpp: BlockClasses::hasChild"]}
{"id": "C74", "title": "The block returned leads to all blocks", "statement": "Every block object created for a deck is the object returned by parse() or a descendant of it.", "quantifier": "every deck, every set of block classes", "why_tests_cant": "all nestings; depends on which classes have an implementation", "anchors": ["src/parser/parser.cpp: Parser::parse", "src/variables/block.cpp: BlockTree"]}
{"id": "C75", "title": "Parameters carry the values of the deck into the program", "statement": "Every block object has exactly the parameters its class registers. After evaluateParameters the C++ variable behind each assignable parameter of the block and of all blocks inside holds the final value of that parameter in the deck; read-only parameters, constants and everything else are unchanged. A required parameter is accepted exactly if the deck assigns to it; otherwise it is reported.", "quantifier": "every deck, every set of block classes with any number and kinds of parameters, every block as the receiver", "why_tests_cant": "all decks and trees; parameters of different blocks could share storage or be evaluated in the wrong context", "anchors": ["src/variables/blockparameters.hpp: BlockParameters, ConcreteParameter::evaluate", "src/variables/block.cpp: Block::evaluateParameters"]}
{"id": "C76", "title": "Containers hold their fitting children", "statement": "After initAll a BlockContainer<T> holds exactly those of its child blocks that are T, in the order in which the deck lists them.", "quantifier": "all trees of blocks, all sets of containers and types, any code in the initialisation functions, any number of calls of initAll", "why_tests_cant": "all trees; the lists are filled from the children during initialisation", "anchors": ["src/variables/blockcontainer.hpp: BlockContainer, ChildBlock::preInit"]}
{"id": "C77", "title": "Diagnostics write into open files", "statement": "Whenever a diagnostic's write() is called, its file has been opened by open() and not yet closed; a file is not opened twice; a diagnostic that does not append closes its file after every output.", "quantifier": "all parameters of diagnostics, all sequences of steps and times", "why_tests_cant": "all schedules of steps and outputs, including runs that continue at a later step", "anchors": ["src/diagnostic/diagnostic.cpp: IntervalDiagnostic::execute, DeltaTimeDiagnostic::execute"]}
{"id": "C78", "title": "All processes take the same time step", "statement": "Processes that create the same diagnostics and execute them at the same times get the same result from DiagnosticManager::adjustDeltaT.", "quantifier": "all sets of diagnostics, all histories of the processes", "why_tests_cant": "all histories; depends on which diagnostics have a single output and on the rank", "anchors": ["src/diagnostic/diagnostic.cpp: DiagnosticManager::adjustDeltaT, DeltaTimeDiagnostic::execute"]}
{"id": "C79", "title": "A field filler fills exactly its fields", "statement": "Every call of fillFields() fills exactly the fields registered with that filler by set(), each with the parameter, the coordinates and the updater given for it, in the order of registration.", "quantifier": "all programs that create and destroy fillers, register fields and fill, in any order", "why_tests_cant": "all histories; the filler that registers a field is chosen by state kept between calls", "anchors": ["src/tools/fieldtools.hpp: FieldFiller, fill_field"]}
{"id": "C80", "title": "Grids and arrays are written to streams completely and in order", "statement": "out << grid writes every element exactly once, the first index varying fastest whatever the storage order: one line for each row, an empty line after each plane (ranks 3 to 5), a single line without line feed for rank 1, nothing for a grid without cells. out << array writes the elements separated by one space. So reading the text word by word gives the elements back.", "quantifier": "all grids of rank 1 to 5, all bounds, all contents, both storage orders; all arrays", "why_tests_cant": "all shapes and bounds, also empty and negative ones", "anchors": ["src/datastream.t: operator<<", "src/datastream.hpp"]}
{"id": "C81", "title": "HDF files hold the global grid, independently of the decomposition", "statement": "writeGrid() called by all processes stores each local cell of each process at its place in the global domain; ghost cells are not stored. readGrid() with the same or any other decomposition puts the stored values into the local cells and changes nothing else. Local ranges outside the global domain are refused.", "quantifier": "all ranks, global domains, decompositions, numbers of ghost cells, storage orders, numbers of processes and orders in which they write; builds with and without parallel HDF5", "why_tests_cant": "all decompositions and shapes; parallel builds with many processes are not tested", "anchors": ["src/diagnostic/hdfdiagnostic.t: HdfOStream::writeGrid, HdfIStream::readGrid, CopyToContainer"]}
{"id": "C82", "title": "Data sets in an HDF file have distinct names and are read back in order", "statement": "All data sets written to one file between open() and close() get different names, whatever sequence of setBlockName() and writeGrid() calls, and the same sequence of calls on an input stream reads them back in the same order.", "quantifier": "all sequences of setBlockName and writeGrid, all block names", "why_tests_cant": "all sequences; names are built from the block name and a counter", "anchors": ["src/diagnostic/hdfdiagnostic.cpp: HdfStream::getNextBlockName, HdfStream::setBlockName", "src/diagnostic/hdfdiagnostic.t: HDFGridDiagnostic::write"]}
{"id": "C83", "title": "Means and sums of sequences", "statement": "mean(begin,end) returns the arithmetic mean of the values: their sum divided by their number, between the smallest and the largest of them; for integers this quotient rounded towards zero. calcsum accumulates the sum.", "quantifier": "all sequences of values, any length", "why_tests_cant": "the division goes through double and sums may overflow: only a proof covers every sequence", "anchors": ["src/algo.t: mean", "src/util/algohelper.hpp: calcsum"]}
{"id": "C84", "title": "Kokkos iteration does not depend on the schedule", "statement": "RangeKokkosIterationPolicy::forEach calls the function exactly once for every index of the range, and functions whose calls for different indices commute have the same effect as with the serial policies, whatever order Kokkos runs them in.", "quantifier": "all ranges of any rank, all schedules, all functions", "why_tests_cant": "a test runs one schedule", "anchors": ["src/grid/iteration/kokkos-iteration.hpp: RangeKokkosIterationPolicy::forEach"]}
{"id": "C85", "title": "Unique numbers and singletons", "statement": "Objects derived from Unique<T> have different numbers for the same T, whatever the order of construction; Singleton::instance returns the same object at every call, created once at the first call.", "quantifier": "all sequences of constructions and requests", "why_tests_cant": "histories are unbounded", "anchors": ["src/util/unique.hpp: Unique", "src/util/singleton.hpp: Singleton::instance"]}
{"id": "C86", "title": "equalFactors divides the processes so that they communicate least", "statement": "Of all ways to write n as a product of k factors, equalFactors(n, k, f, w) returns one with the smallest sum of f[i]/w[i]: the local domains have the smallest surface.", "quantifier": "all n >= 1, k >= 1 and positive weights", "why_tests_cant": "number theoretic optimisation over all factorizations of all numbers", "anchors": ["src/util/factor.cpp: equalFactors, makePrimes, factorize, distribute", "src/grid/mpisubdivision.t: init"]}
{"id": "C87", "title": "Chains of operands of different types are grouped by type", "statement": "In a chain of operators of one level (+ and -, or * and /) whose operands have different types, the value is that of the chain with parentheses around everything that follows an operand of a type larger than all the types after it, and left-to-right evaluation otherwise: 1.5 - 3 - 2 is 1.5 - (3 - 2). This holds in every chain of every expression.", "quantifier": "all expressions of any size and nesting, any mixture of types, all values of the variables", "why_tests_cant": "types and chains combine without bound", "anchors": ["parser/deckgrammar.y: expression, unsigned_expression, term_expression", "src/parser/parsertoken.t: ParserToken::assignBinaryOperator", "src/variables/expression.hpp: BinaryOp"]}
{"id": "C88", "title": "Loops over ranges of machine integers end, and overflow only at the largest integer", "statement": "A loop from begin() to end() and forEach of the C and Fortran policies visit every index of a range once and end whenever all upper bounds are below the largest int. If an upper bound is the largest int, the loop increments it, which is undefined. forEach calls a copy of the function object at every index, so what a call keeps inside the object is lost while what it changes outside stays.", "quantifier": "all ranges of any rank and bounds in the integer type, all function objects", "why_tests_cant": "the failure is at one bound out of 2^32 and after more than 2^31 steps", "anchors": ["src/grid/range.hpp: Range::iterator::increment", "src/grid/iteration/range-iteration.hpp: RangeCIterationPolicy::forEach, RangeFortranIterationPolicy::forEach"]}
{"id": "C89", "title": "Reductions over all processes do not depend on the order of combination more than rounding demands", "statement": "Every process receives the same result. maxReduce and minReduce return the largest and the smallest of the values of the processes. sumReduce of integers whose absolute values add up to less than 2^31 returns the sum, avgReduce the average rounded towards zero, in whatever order MPI combines the values. For doubles the sum deviates by at most ((1+2^-53)^(n-1)-1) times the sum of the absolute values for n processes, and avgReduce is that sum divided by n, rounded once. With one process the results are those of the serial subdivision. Beyond the bound the order decides: an integer sum may be undefined and sums of doubles may differ between orders.", "quantifier": "all numbers of processes, all values, all orders of combination", "why_tests_cant": "the order is chosen by the MPI implementation", "anchors": ["src/grid/mpisubdivision.t: sumReduce, avgReduce, maxReduce, minReduce", "src/grid/domainsubdivision.hpp: SerialSubdivision"]}
{"id": "C90", "title": "Text diagnostics leave every output in its file", "statement": "At the end of a run, the file named for an output of a text diagnostic holds exactly what the field printed at that step, unless a later output has the same name; with append=1 the file holds all outputs one after the other; no other file is touched.", "quantifier": "all configurations, intervals, sequences of time steps and contents of the field; files that can or cannot be opened", "why_tests_cant": "all histories of executions of the diagnostic manager", "anchors": ["src/diagnostic/diagnostic.t: SimpleFileDiagnostic", "src/diagnostic/diagnostic.cpp: IntervalDiagnostic::execute"]}
{"id": "C91", "title": "HDF diagnostics leave every output in its file", "statement": "At the end of a run, the file named for an output of an HDF diagnostic holds exactly one data set with the field of that step, unless a later output has the same name; with append=1 all outputs are in the one file; no file stays open.", "quantifier": "all configurations, intervals, sequences of time steps and fields", "why_tests_cant": "all histories of executions of the diagnostic manager", "anchors": ["src/diagnostic/hdfdiagnostic.t: HDFGridDiagnostic::write", "src/diagnostic/hdfdiagnostic.cpp: HdfOStream::open, HdfStream::close"]}
{"id": "C92", "title": "HDF files are closed exactly once", "statement": "Every file opened by a stream is closed once, not before the stream is closed, reopened or destroyed, and at the latest when all streams are destroyed.", "quantifier": "all sequences of construction, copying, assignment, open, close, setActive and destruction of any number of streams, all answers of the library", "why_tests_cant": "histories are unbounded", "anchors": ["src/diagnostic/hdfdiagnostic.cpp: HdfStream, HdfIStream::open, HdfOStream::open"]}
{"id": "C93", "title": "Attributes of HDF data sets hold the values at the time of writing", "statement": "Every data set written carries one attribute for each name set before it, with the values that the variable passed in the last set() of that name has when the data set is written. The variables must still exist then.", "quantifier": "all sequences of set, changes of variables and writes", "why_tests_cant": "histories are unbounded", "anchors": ["src/diagnostic/hdfdiagnostic.t: HdfAttributes::set, HdfOStream::writeGrid"]}
{"id": "C94", "title": "The manager executes exactly the diagnostics that exist", "statement": "DiagnosticManager::execute calls every diagnostic constructed and not yet destroyed exactly once, in the order of construction.", "quantifier": "all sequences of construction, copying and destruction of diagnostics and calls of execute", "why_tests_cant": "histories are unbounded", "anchors": ["src/diagnostic/diagnostic.cpp: IntervalDiagnostic, DiagnosticManager::addIntervalDiagnostic, DiagnosticManager::execute", "src/diagnostic/diagnostic.t: ~SimpleDiagnostic"]}
{"id": "C95", "title": "The result of a simulation does not depend on how the domain is divided", "statement": "Processes that repeatedly update their inner cells from the values before the step, with a rule that looks no further than the ghost width, and then call exchange end with the values that the same steps give on the undivided periodic domain; any two process grids, ghost widths and subdivision classes give the same values in every cell, whatever the order in which the processes run, and none waits for ever. The domain starts at zero, and every process has at least as many inner cells in each dimension as ghost cells.", "quantifier": "all numbers of steps, rules, domains, process grids, ghost widths, initial values and schedules", "why_tests_cant": "steps, rules and schedules are unbounded", "anchors": ["src/grid/mpisubdivision.t: init, exchange", "src/grid/domainsubdivision.t: SerialSubdivision::exchange", "src/grid/boundary.t: getInnerDomain", "examples/example_mpisub.cpp: runSimulation"]}
{"id": "C96", "title": "Every documented function can be used in expressions, and the last registration counts", "statement": "After registerCMath, registerUtilityFunctions, registerSpecialFunctions or registerAllFunctions the documented functions can be called by their names with the documented numbers of arguments, whatever was registered before, and no other name changes. A registry and its copies find the function registered last under a name by any of them. Every call has type float and the value of the function at the converted arguments; minI and maxI of integers are exact, also when assigned to an int; min and max return the smaller and the larger argument in whatever order they are given; pow(x, y) is x ^ y for floats; normal(x, sigma, m) is the bell curve around m.", "quantifier": "all programs that create, copy, assign and fill registries, all expressions as arguments, all values", "why_tests_cant": "histories of registrations, expressions and floating point values are unbounded", "anchors": ["src/variables/function_expression.cpp: registerCMath, registerUtilityFunctions, registerSpecialFunctions, registerAllFunctions, internal::min, internal::max, internal::minI, internal::maxI, internal::normal", "src/variables/function_expression.hpp: FunctionRegistry"]}
{"id": "C97", "title": "Array parameters are the deck variables named after their components", "statement": "addArrayParameter registers component i under the name of the array followed by letter i of the extension, with the default and the permission given, and throws if there are not enough letters. In every object of an accepted deck each component is a variable of the object's block, and after the parameters are evaluated the component holds the value of that variable, a read-only component what it held before. A value the deck assigns to a registered name always reaches the C++ variable.", "quantifier": "all block classes with any number of scalar and array parameters, ranks, extensions and defaults, all deck texts", "why_tests_cant": "classes and decks are unbounded", "anchors": ["src/variables/blockparameters.hpp: BlockParameters::addArrayParameter, BlockParameters::addParameter, BlockParameters::evaluate"]}
{"id": "C98", "title": "HDF files are opened by exactly the active processes", "statement": "In a parallel run every open of an HDF stream takes place on exactly the processes for which the last call of setActive was true (all, if there was none), whatever the order in which the processes run, and no process waits for ever.", "quantifier": "all numbers of processes and opens, all calls of setActive, all schedules", "why_tests_cant": "schedules and histories are unbounded", "anchors": ["src/diagnostic/hdfdiagnostic.hpp: HdfStream::setActive", "src/diagnostic/hdfdiagnostic.cpp: HdfStream::makeMPIGroup, HdfIStream::open, HdfOStream::open"]}
{"id": "C99", "title": "A block class allows exactly the classes that were added to it", "statement": "Inside a block of a class exactly the classes are allowed that the program added to it with addChildren, and objects are made of the C++ class set with setClass, whichever copy of the registry or reference was used and also if the parser was made before; registering a class again forgets what was said before. References to a class stay valid while the registry exists. Accepted decks nest blocks only as allowed, if the registry restricts blocks.", "quantifier": "all programs that create, copy, assign and destroy registries, register and look up classes and change them through references; all deck texts", "why_tests_cant": "histories and decks are unbounded", "anchors": ["src/variables/blockclasses.cpp: BlockClasses::registerBlock, BlockClasses::get, BlockClasses::hasChild, BlockClassDescriptor::addChildren", "src/variables/blockclasses.hpp: BlockClassDescriptor::setClass, BlockClasses", "src/parser/parsertoken.cpp: ParserToken::createBlock"]}
{"id": "C100", "title": "Diagnostics write the current values of their grid", "statement": "Each output of an HDF grid diagnostic holds, for every inner cell of its grid, the value the cell was given last, through whichever copy of the grid or by a reader, and whatever the program did with the grids since the diagnostic was initialised; a reader changes exactly the inner cells, for all copies of its grid.", "quantifier": "all programs that create, copy, assign, resize, destroy, read and write grids and construct, initialise and use diagnostics and readers; all numbers of processes", "why_tests_cant": "histories are unbounded", "anchors": ["src/diagnostic/hdfdiagnostic.t: HDFGridDiagnostic::init, HDFGridDiagnostic::write, HDFGridReader::init, HDFGridReader::read, CopyToContainer::copy", "src/diagnostic/diagnostic.t: SimpleDiagnostic::init"]}
{"id": "C101", "title": "BibTeX reads back what the literature manager wrote", "statement": "BibTeX reads from the file of writeBibTex exactly one entry per key of the references added, with the kind, the key and every non-empty field of the reference that was first added with the key, whatever text the fields contain.", "quantifier": "all sequences of addReference, all keys and field values", "why_tests_cant": "texts and histories are unbounded", "anchors": ["src/tools/literature.cpp: schnek::operator<<, LiteratureManager::writeBibTex, LiteratureManager::addReference"]}
{"id": "C102", "title": "The memory of a grid lives exactly as long as a grid uses it", "statement": "At any time the memory blocks allocated for grids are exactly the arrays of the grids that exist: the memory of a grid is released when the last grid sharing it is destroyed, assigned to or resized, never earlier and never twice, nothing is left when all grids are destroyed, and no grid accesses its elements through a pointer to released memory.", "quantifier": "all programs that construct, copy, assign, resize, read, write and destroy grids without undefined behaviour, both allocation policies, both orders, all ranks", "why_tests_cant": "histories are unbounded", "anchors": ["src/grid/gridstorage/single-array-allocation.hpp: SingleArrayAllocationData, SingleArrayInstantAllocation, SingleArrayLazyAllocation", "src/grid/gridstorage/single-array-storage-base.hpp: updateDataFast"]}
{"id": "C103", "title": "Errors in a deck are reported in the right place", "statement": "When a deck is rejected with a ParserError, the error carries a token of the statement at fault, of the kind the error is about (the name of an unknown, redeclared, read-only or undeclared variable, the name or class of a block, the type in a declaration, the extra brace), and the number of the line in which that token stands in the text; all statements before that statement have been read and executed as written. A syntax error is reported at the first token that cannot follow the ones before it.", "quantifier": "all texts, all registered functions and block classes, all earlier decks", "why_tests_cant": "texts are unbounded; the token travels through chains of parser values of any length, and lines are counted across comments, strings and buffers", "anchors": ["src/parser/parser.cpp: Parser::parse", "src/parser/parsertoken.hpp: ParserToken, ParserError", "src/parser/parsertoken.cpp: storeVariable, updateVariable, createBlock, endBlock", "parser/deckscanner.rl: DeckScanner"]}
{"id": "C104", "title": "The value of a variable is that of the expression written last for it", "statement": "After a deck has been read, the value of each of its variables is the value of the expression in the last statement that declares or assigns it, for the variables as they are where that statement stands if all of them have values there, and as they are at the end of the deck otherwise, converted to the type of the variable. Names in the expression mean what they mean where it is written; the types of the expression and of its parts are those C33 gives. Parameters no statement writes keep the value the program registered.", "quantifier": "all texts, all registered functions and block classes with their parameters", "why_tests_cant": "decks are unbounded; the value depends on the order of all statements, on shadowing across blocks and on the deferred evaluation of expressions with variables that have no values yet", "anchors": ["src/parser/parsertoken.cpp: ParserToken::storeVariable, ParserToken::updateVariable", "src/variables/variables.cpp: Variable::evaluateExpression", "src/variables/dependencies.cpp: DependencyMap::updateAll", "src/variables/blockparameters.hpp: ConcreteParameter", "src/parser/parser.cpp: Parser::parse"]}
{"id": "C105", "title": "The program's variables receive what the deck says", "statement": "After a deck has been read and the parameters have been evaluated without an error, every C++ variable registered as a parameter by an object made from the deck holds the value of the expression the deck wrote last for that parameter, converted to its type (see C104), or the default value if the deck writes none; variables registered read-only keep their values. Evaluation fails only if the deck never gives a required parameter (and then names such a parameter), or if the value of the expression written last for a parameter cannot be converted.", "quantifier": "all texts, all registered functions, all block classes with distinct parameter names, all objects of the tree", "why_tests_cant": "decks, trees of blocks and lists of parameters are unbounded; the value passes through scanner, parser, lookup, deferred evaluation and the copy into the program's memory", "anchors": ["src/variables/blockparameters.hpp: BlockParameters::addParameter, ConcreteParameter::evaluate", "src/variables/block.cpp: Block::evaluateParameters, Block::initAll", "src/parser/parser.cpp: Parser::parse", "src/parser/parsertoken.cpp: ParserToken::updateVariable"]}
{"id": "C106", "title": "All ways to give a grid its extent agree", "statement": "A grid constructed with or resized to a size, a lower and an upper bound, a range or the extent of another grid has, and all its copies have, the bounds asked for at the time of the call: 0 to size-1, the two bounds, those of the range or of the other grid. This also holds when an argument refers to the bounds of a grid that the call changes, such as grid.resize(grid.getLo(), high). In all else these calls are equal to resize(low, high).", "quantifier": "all programs over any number of grids with constructors and resizes of all kinds, copies, assignments, reads and writes; both storage orders, both allocation policies; all ranks and bounds", "why_tests_cant": "the arguments are references that can alias the bounds of the grid or of its copies; the effects must be compared for every history of resizes and copies", "anchors": ["src/grid/grid.t: GridBase::GridBase, GridBase::resize, Grid::Grid", "src/grid/gridstorage/single-array-storage-base.hpp: resize, constructors", "src/grid/gridstorage/single-array-allocation.hpp: resizeImpl, updateSizeInfo"]}
{"id": "C107", "title": "Groups of parameters contain what was added to them", "statement": "A ParametersGroup contains exactly the parameters and variables that the program added to it, whenever it asks: before, while and after a deck gives them values. hasElements tells whether a set of ids lies inside the group and removes those that do.", "quantifier": "all block classes, decks and interleavings of added variables or arrays of variables with the statements of the deck; all groups and sets of ids", "why_tests_cant": "membership is kept by unique ids, which an assignment in the deck replaces; it must be followed through every deck and every order of additions", "anchors": ["src/variables/blockparameters.cpp: ParametersGroup::add, isElement, hasElements", "src/variables/blockparameters.hpp: ParametersGroup::addArray", "src/variables/variables.cpp: Variable::operator=", "src/util/unique.hpp: Unique"]}
{"id": "C108", "title": "Views follow their base grid through every history", "statement": "An element read through a sub-grid view is the one the base grid has at that index at that time, and a write through the view is seen by the base grid and all grids that share its data, whatever copies, assignments and resizes of grids and views came before. Copying or assigning a view makes it look at the same grid with the same bounds. Operations on grids do not change the bounds of views. A view is usable exactly while its base grid object lives; it does not keep the data alive.", "quantifier": "all programs over any number of grids and views; all ranks, bounds, storage orders, allocation policies and checking policies; assignments of grids as far as C11 and C12 hold", "why_tests_cant": "the view holds a raw pointer to a grid object whose data moves with every resize and assignment; every interleaving matters", "anchors": ["src/grid/subgrid.hpp: SubGridStorage, SubGrid", "src/grid/subgrid.t: SubGrid::SubGrid, SubGridStorage::resize", "src/grid/gridstorage/single-array-allocation.hpp"]}
{"id": "C109", "title": "MPI subdivisions release what they acquire, once", "statement": "Initialising an MPI subdivision acquires a send and a receive buffer for each dimension and a communicator; an exchange uses only what its subdivision holds; destroying the subdivision releases all of it, and nothing is released twice or used after its release, whatever other subdivisions are made, copied, assigned, initialised and destroyed in between.", "quantifier": "all programs that construct, copy, assign, initialise, exchange with and destroy any number of subdivisions; all ranks", "why_tests_cant": "the class has raw pointers and a communicator, a destructor that releases them, and copies made member by member; whether a release is the last depends on the whole history", "anchors": ["src/grid/mpisubdivision.hpp: MPICartSubdivision", "src/grid/mpisubdivision.t: MPICartSubdivision, ~MPICartSubdivision, init"]}
{"id": "C110", "title": "Grids are written and read by exactly the active processes, and nobody waits", "statement": "In a program with several processes that all make the same calls, after each process has said by setActive whether it takes part, a grid is written or read by exactly the active processes, with its attributes; each file is opened in one group that consists of the active processes; and the program goes on. This holds for every sequence of setActive, open, write and read calls, however often the active processes change.", "quantifier": "all numbers of processes, all sequences of setActive, open and write or read calls, all choices of active processes", "why_tests_cant": "whether a collective call returns depends on which communicator each process kept from earlier calls; a test fixes the number of processes and one sequence, and a deadlock shows only as a test that does not end", "anchors": ["src/diagnostic/hdfdiagnostic.cpp: makeMPIGroup, HdfIStream::open, HdfOStream::open", "src/diagnostic/hdfdiagnostic.hpp: setActive", "src/diagnostic/hdfdiagnostic.t: readGrid, writeGrid"]}
{"id": "C111", "title": "A transformed view shows the transformed values of its base grid", "statement": "A view that transforms a grid shows, at every index of the grid and at every time, the transformation of the value the grid has there at that time, with the bounds of the grid; a reference obtained from the view shows the value of the element it was obtained for; what is done through views never changes the grid.", "quantifier": "all types of values, all transformations, all programs that make and retarget any number of views, change and resize the grids, read values and bounds, obtain references and read and assign through them", "why_tests_cant": "the value of a reference depends on every other element access in the program, by any view of the same type; a test that reads one element at a time does not see it", "anchors": ["src/grid/gridtransform.hpp: GridTransformStorage", "src/grid/gridtransform.t: GridTransformStorage"]}
{"id": "C112", "title": "The cells of a domain are shared out evenly among the processes", "statement": "An MPI subdivision gives any two processes numbers of inner cells that differ by at most one in every dimension, and gives every process cells as long as there are at least as many cells as processes in that dimension.", "quantifier": "all process grids, ranks, domains that start at zero and ghost widths; cuts computed exactly and in binary64", "why_tests_cant": "the largest difference over all numbers of cells and processes is asked for, and the cuts are computed in floating point", "anchors": ["src/grid/mpisubdivision.t: MPICartSubdivision::init", "src/grid/domainsubdivision.hpp: getInnerDomain"]}
