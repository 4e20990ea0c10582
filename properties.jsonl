{"id": "C01", "title": "parse_sudoku accepts exactly 81-digit strings", "statement": "parse_sudoku returns Ok(v) if and only if the string consists of exactly 81 characters, all ASCII digits 0-9; then v has 81 entries and entry i is the numeric value of character i.", "quantifier": "every string of Unicode characters, of every length", "why_tests_cant": "the input space is all strings; tests parse five fixed ones", "anchors": ["src/puzzles/sudoku/mod.rs:parse_sudoku"]}
{"id": "C02", "title": "parse_sudoku reports the right error", "statement": "If some character is not an ASCII digit, parse_sudoku returns InvalidInteger of the first such character, whatever the length; otherwise, if the number of characters is not 81 it returns InvalidSize of that number. It never panics.", "quantifier": "every string", "why_tests_cant": "no unit test covers an error path and the order of the two checks matters for every mixed input", "anchors": ["src/puzzles/sudoku/mod.rs:parse_sudoku", "src/puzzles/sudoku/mod.rs:SudokuError"]}
{"id": "C03", "title": "Sudoku text round-trips", "statement": "Writing any 81-entry grid of values 0-9 as a digit string and parsing it gives back that grid; parsing any accepted string and writing it back gives that string.", "quantifier": "every grid of 81 digits and every accepted string", "why_tests_cant": "10^81 grids", "anchors": ["src/puzzles/sudoku/mod.rs:parse_sudoku"]}
{"id": "C04", "title": "solve_sudoku is sound", "statement": "Whenever solve_sudoku returns Ok(g) on a puzzle of 81 entries 0-9, g has 81 entries in 1-9, keeps every non-zero clue, and every row, column and 3x3 box of g contains each of 1-9 exactly once.", "quantifier": "every puzzle of 81 entries 0-9", "why_tests_cant": "tests solve four puzzles; soundness must hold on all 10^81", "anchors": ["src/puzzles/sudoku/mod.rs:solve_sudoku", "src/structures/dancing_links/mod.rs:DancingMatrix", "src/structures/dancing_links/node.rs:Node"]}
{"id": "C05", "title": "solve_sudoku is complete", "statement": "If a puzzle of 81 entries 0-9 has at least one completion, solve_sudoku returns Ok (of some completion) - it terminates, does not panic, does not touch invalid memory and never answers NoSolution.", "quantifier": "every solvable puzzle", "why_tests_cant": "a single missed branch in the backtracking search only shows on particular puzzles", "anchors": ["src/puzzles/sudoku/mod.rs:solve_sudoku", "src/structures/dancing_links/mod.rs:DancingMatrix::solve_helper"]}
{"id": "C06", "title": "solve_sudoku answers NoSolution only for unsolvable puzzles", "statement": "If solve_sudoku returns Err(NoSolution) on a puzzle of 81 entries 0-9, then no completion of the puzzle exists.", "quantifier": "every puzzle of 81 entries 0-9", "why_tests_cant": "absence of a solution cannot be tested by example", "anchors": ["src/puzzles/sudoku/mod.rs:solve_sudoku", "src/structures/dancing_links/mod.rs:DancingMatrix::solve"]}
{"id": "C07", "title": "solve_sudoku never touches freed memory", "statement": "For every puzzle of 81 entries 0-9, solve_sudoku performs no use-after-free, no double free and no null dereference.", "quantifier": "every puzzle of 81 entries 0-9, including contradictory ones", "why_tests_cant": "undefined behaviour appears only on particular clue combinations; miri only sees the five puzzles of the test suite", "anchors": ["src/puzzles/sudoku/mod.rs:solve_sudoku", "src/structures/dancing_links/mod.rs:DancingMatrix::add_solution", "src/structures/dancing_links/node.rs:Node::free_chain"]}
{"id": "C08", "title": "solve_sudoku rejects malformed grids", "statement": "solve_sudoku returns InvalidSize(n) exactly when given n != 81 entries, and an entry greater than 9 is rejected or at least never silently replaced by another digit.", "quantifier": "every byte vector", "why_tests_cant": "2^8^n inputs; no test passes an out-of-range byte", "anchors": ["src/puzzles/sudoku/mod.rs:solve_sudoku"]}
{"id": "C09", "title": "solve_sudoku returns the unique solution and is idempotent", "statement": "If a puzzle has exactly one completion, solve_sudoku returns it; solving a complete valid grid returns that same grid, and solving the output of solve_sudoku returns it unchanged.", "quantifier": "every puzzle of 81 entries 0-9", "why_tests_cant": "6.67*10^21 complete grids", "anchors": ["src/puzzles/sudoku/mod.rs:solve_sudoku"]}
{"id": "C10", "title": "The Sudoku constraint table is exactly Sudoku", "statement": "A set of (cell, digit) choices hits every one of the 324 built-in constraints exactly once if and only if the choices form a valid completed Sudoku grid.", "quantifier": "every set of (cell, digit) choices", "why_tests_cant": "2^729 sets", "anchors": ["src/puzzles/sudoku/mod.rs:SUDOKU_CONSTRAINTS"]}
{"id": "C100", "title": "The sizes for which create_maze succeeds", "statement": "With the capacity checks of vec! (at most isize::MAX bytes), create_maze panics when the width or the height is 0 or three words per cell need isize::MAX + 1 bytes (2^63, or 2^31 with 32-bit words) or more, in builds with and without overflow checks and also when width * height wraps around; for all other sizes the capacity checks change nothing. So whenever a maze is returned, the number of cells is below 2^(word size - 1) and all properties of mazes apply.", "quantifier": "all widths that fit usize, all heights, all random sequences, both builds, 32- and 64-bit words", "why_tests_cant": "sizes near 2^64 need more memory than a machine has, and products that wrap around to small numbers are rarely tried", "anchors": ["src/puzzles/maze/mod.rs:create_maze", "src/puzzles/maze/recursive_backtrack.rs:recursive_backtrack"]}
{"id": "C101", "title": "Capacity checks in the nonogram solver", "statement": "With the capacity checks of Vec, solve_nonogram panics for every puzzle with a clue whose blocks and gaps need isize::MAX + 1 squares or more; the checks never change an answer, and change nothing if all vectors stay within isize::MAX bytes. A text that the parser accepts without overflow checks either fits the grid or makes the solver panic, so a wrapped clue never leads to an answer or to NoSolution.", "quantifier": "all clues, both builds, 32- and 64-bit words, every growth rule of vectors between the needed length and the doubled capacity; all texts for C101_text", "why_tests_cant": "clues near 2^63 need more memory than a machine has; whether wrapped sums are harmless is a statement about all texts", "anchors": ["src/puzzles/nonogram/right_left.rs:RuleMachine::new", "src/puzzles/nonogram/right_left.rs:find_left", "src/puzzles/nonogram/mod.rs:solve_nonogram", "src/puzzles/nonogram/mod.rs:parse_nonogram_rules"]}
{"id": "C102", "title": "Row numbers of all sizes in DancingMatrix::new", "statement": "DancingMatrix::new returns the matrix it should for row numbers below 2^59 - 1 (2^28 - 1 with 32-bit words); it panics for every row number from 2^60 - 1 (2^29 - 1) on, with and without overflow checks, and then leaks exactly the root and the headers and nodes made before; for all row numbers it does one of the two and never touches invalid memory.", "quantifier": "all constraint lists, both builds, 32- and 64-bit words, every growth rule of vectors between the needed length and the doubled capacity", "why_tests_cant": "such row numbers need more memory than a machine has, and 2^64 - 1 wraps around only without overflow checks; a leak is invisible to tests", "anchors": ["src/structures/dancing_links/mod.rs:new", "src/structures/dancing_links/node.rs:new"]}
{"id": "C103", "title": "Nonogram images of all sizes", "statement": "print_nonogram draws every clue of every puzzle for which it returns an image (false with 64-bit words: clues of columns from pixel 2^31 on are drawn at negative coordinates); with overflow checks it panics exactly if a side of the image or the position of a clue does not fit in 32 bits or the image needs 2^63 bytes or more (2^31 with 32-bit words).", "quantifier": "all puzzles, all renderings of text, 32- and 64-bit words", "why_tests_cant": "such images need many gigabytes", "anchors": ["src/puzzles/nonogram/mod.rs:print_nonogram"]}
{"id": "C104", "title": "Nonogram solutions on images of all sizes", "statement": "print_nonogram_solution draws the filled squares onto every image of the right size (false: if a side has 2^31 pixels or more nothing is painted, and with overflow checks a filled square just before pixel 2^31 panics); on smaller images the rectangles of the drawing library, which computes with signed numbers, are the ones C42 assumes.", "quantifier": "all grids, all images of the right size, both builds, 32- and 64-bit words", "why_tests_cant": "such images need many gigabytes", "anchors": ["src/puzzles/nonogram/mod.rs:print_nonogram_solution"]}
{"id": "C105", "title": "Serialised mazes are read back unchanged, and nothing else is accepted", "statement": "A maze and its solution written with serde are read back as they were. A value is read as a cell exactly if it is a map with one boolean \"right\" and one boolean \"down\" (other keys and the order do not matter) or a list of the two booleans, and as a direction exactly if it is the name of a variant or a map from that name to null.", "quantifier": "all grids, all solutions, all values of a self-describing format", "why_tests_cant": "tests read the few values somebody wrote down; the claim is about every value", "anchors": ["src/puzzles/maze/mod.rs:MazeNode", "src/puzzles/maze/mod.rs:MazeDirection"]}
{"id": "C106", "title": "From texts and sizes to PNG files", "statement": "With up to 10000 rows and columns (400 with 32-bit words) every nonogram given as text, without a zero at an end of a clue, is printed and solved or rightly rejected, and the answer is drawn onto the printed image, whose black squares belong to every solution; every maze is created, survives serialisation and is printed; every Sudoku text without clashing clues is printed and completed or rightly rejected. All images become PNG bytes and nothing panics or leaks.", "quantifier": "all texts, all sizes up to 10000 (400), all random numbers, both builds (release without overflowing clues)", "why_tests_cant": "no test runs the functions of the crate one after the other", "anchors": ["src/puzzles/nonogram/mod.rs:solve_nonogram", "src/puzzles/maze/mod.rs:create_maze", "src/puzzles/sudoku/mod.rs:solve_sudoku", "src/lib.rs:image_to_png_bytes"]}
{"id": "C107", "title": "Rounds of the nonogram solver grow with the puzzle", "statement": "There are solvable nonograms with n rows and n+2 columns for which the solver's outer loop needs at least n-2 rounds, that is at least (n-2)(2n+2) looks at lines; so no constant bounds the rounds. The solver settles each of them completely and returns the picture.", "quantifier": "every n from 2 on whose squares can be counted in a usize, both builds", "why_tests_cant": "needs a family of puzzles of every size and a lower bound on an unobservable count", "anchors": ["src/puzzles/nonogram/mod.rs:right_left", "src/puzzles/nonogram/mod.rs:solve_nonogram"]}
{"id": "C108", "title": "Iterators with wrong lengths cannot break the exact cover solver", "statement": "DancingMatrix::new accepts any ExactSizeIterator, a safe trait whose len may be wrong. In a build without overflow checks, whatever lengths the iterators claim: adding rows has the same outcomes as with the right lengths, every node is freed, no memory is misused that would not be misused anyhow, and solve returns an exact cover containing the fixed rows if and only if there is one. Only which of several exact covers is found can change. With overflow checks the same holds, except that a call may panic instead if some iterator claims less than it yields; one that claims more never makes a difference beyond which exact cover is found.", "quantifier": "32- and 64-bit words, every list of claimed lengths, every list of constraints without repeated rows, every list of rows", "why_tests_cant": "needs implementations of ExactSizeIterator that lie, all lies, and memory errors that need not show", "anchors": ["src/structures/dancing_links/mod.rs:new", "src/structures/dancing_links/mod.rs:solve_helper", "src/structures/dancing_links/node.rs:new_header"]}
{"id": "C109", "title": "The exact cover search can take exponential time, and never more", "statement": "If no constraint has more than m rows, solve_helper is called at most 1 + m + ... + m^n times, n being the number of constraints left after the fixed rows. For every n there is a matrix of n + 3 constraints with two rows each, 3n + 10 nodes in all, for which it is called exactly 2^(n+2) - 1 times before it reports that there is no solution; the bound is 2^(n+4) - 1 there.", "quantifier": "every list of constraints without repeated rows, every list of compatible fixed rows, every n", "why_tests_cant": "running times that double with every constraint cannot be followed far, and a bound needs all inputs", "anchors": ["src/structures/dancing_links/mod.rs:solve_helper", "src/structures/dancing_links/mod.rs:solve"]}
{"id": "C11", "title": "DancingMatrix::solve decides exact cover", "statement": "For every matrix built from constraint lists without repeated row indices, solve terminates and returns Ok(rows) where every constraint contains exactly one of the returned rows, if such a selection exists, and Err(NoSolution) otherwise; the returned rows are distinct and each occurs in some constraint.", "quantifier": "every finite list of duplicate-free constraints", "why_tests_cant": "arbitrary matrices; tests run one", "anchors": ["src/structures/dancing_links/mod.rs:DancingMatrix::new", "src/structures/dancing_links/mod.rs:DancingMatrix::solve"]}
{"id": "C110", "title": "A panic in the search drops the half covered matrix safely", "statement": "If an iterator claims fewer rows than it yields, a build with overflow checks can panic inside cover_column, and unwinding then drops the matrix while columns are covered and links of nodes are being removed. Nothing is freed twice or used after being freed: with compatible fixed rows the outcome is that panic, and only if some length is too small, or the right answer with every node freed. With any fixed rows it is that panic or the outcome of the right lengths. The panics are those of the model without unwinding.", "quantifier": "every list of pairs of a claimed length and a constraint without repeated rows, every list of fixed rows", "why_tests_cant": "the states in which the destructor can run are those in the middle of every loop of every search", "anchors": ["src/structures/dancing_links/mod.rs:drop", "src/structures/dancing_links/mod.rs:solve_helper", "src/structures/dancing_links/mod.rs:add_solution", "src/structures/dancing_links/node.rs:cover_column"]}
{"id": "C111", "title": "Builds with 32-bit words", "statement": "A build with 32-bit words and overflow checks panics or returns exactly what a build with 64-bit words returns, for creating and printing mazes, solving and printing nonograms and building exact cover matrices, capacity checks included. The rule parser accepts the same texts as the same clues on both; only the reason of a rejection can differ. The defects of images with more than 2^32 cells or 2^31 pixels a side do not exist with 32-bit words, as these images do not fit in memory.", "quantifier": "all inputs; for the parser all texts and bounds below 2^32", "why_tests_cant": "tests run on one machine, and sizes at which the word size matters are too large for them", "anchors": ["src/puzzles/maze/mod.rs:create_maze", "src/puzzles/maze/mod.rs:print_maze", "src/puzzles/nonogram/mod.rs:parse_nonogram_rules", "src/puzzles/nonogram/mod.rs:solve_nonogram", "src/puzzles/nonogram/mod.rs:print_nonogram", "src/puzzles/nonogram/mod.rs:print_nonogram_solution", "src/structures/dancing_links/mod.rs:new"]}
{"id": "C112", "title": "A matrix whose add_solution panicked can be used again", "statement": "If the panic of add_solution (in a build with overflow checks, for a constraint iterator that claims too small a length) is caught, the matrix that is left can be dropped, solved and extended without undefined behaviour, and solve still answers with exact covers only.", "quantifier": "all constraints without repetition, all claimed lengths, all rows", "why_tests_cant": "needs wrong iterator lengths, a caught panic, and particular later calls; the effect is memory corruption or a plausible wrong answer", "anchors": ["src/structures/dancing_links/mod.rs:57-83", "src/structures/dancing_links/mod.rs:135-145", "src/structures/dancing_links/node.rs:117-130"]}
{"id": "C113", "title": "Mazes survive binary formats", "statement": "With the derived Serialize and Deserialize of MazeNode and MazeDirection, a maze and its solution written in a binary format that reads back its own bools, variant numbers and lengths are read back unchanged, whatever follows; if the format is canonical, nothing else is accepted; exactly the variant numbers from 4 on are rejected as directions; in the bincode 1 format the bytes are the wall bytes in the order right, down and the numbers 0 to 3 for Right, Down, Left, Up, 16 + 2 cells + 4 steps bytes in all.", "quantifier": "all mazes and solutions shorter than 2^64, all formats, all byte strings", "why_tests_cant": "the tests do not serialise anything; stored mazes break when fields or variants are reordered", "anchors": ["src/puzzles/maze/mod.rs:28-32", "src/puzzles/maze/mod.rs:43-49"]}
{"id": "C114", "title": "Panicking constraint iterators leak exactly the nodes made", "statement": "If the code of the caller that DancingMatrix::new runs (the outer iterator, len, or the iterator of a constraint) panics, new unwinds without undefined behaviour and leaks exactly the root and the headers and nodes of the constraints read so far; if it does not panic, new returns the usual matrix.", "quantifier": "all constraint iterators, with panics at any call and any claimed lengths", "why_tests_cant": "tests pass slices, whose iterators never panic, and leaks of an unwinding constructor show up in no result", "anchors": ["src/structures/dancing_links/mod.rs:25-55", "src/structures/dancing_links/node.rs:26-91"]}
{"id": "C115", "title": "Amortised work of the disjoint set", "statement": "Any sequence of add, find, common_set and union calls on a new disjoint set makes at most g + 2 calls of find_helper per call of find and 2 g + 1 more per element, where g is so large that the number of elements is below the tower 2^2^...^2 of g + 1 twos (the iterated logarithm); with fewer than 2^64 elements that is at most 6 per find and 9 per element.", "quantifier": "all numbers of elements, all sequences of calls", "why_tests_cant": "a missing path compression or a wrong union by size only makes long sequences slow", "anchors": ["src/structures/disjoint_set.rs:27-85"]}
{"id": "C116", "title": "Nothing goes wrong with the nodes before some are freed", "statement": "Whatever the constraints of a matrix are, also if they name rows repeatedly or claim wrong lengths: covering and uncovering columns in any order terminates and uses no node that is not live; at worst a size below zero panics, and then the matrix is dropped safely; otherwise the same nodes are live as before and the matrix can be dropped. Hence solve misuses memory only after its search has found an answer and started to free nodes; as long as it has not, it reports that there is no solution, panics or does not terminate. Without overflow checks covering and uncovering never fails at all, and before an answer is found solve does not panic either. With overflow checks the same holds for a matrix left behind by the first caught panic of add_solution.", "quantifier": "all lists of pairs of a claimed length and a constraint, all sequences of calls of cover_column and uncover_column on live nodes; for caught panics all constraints without repeated rows and all rows; builds with and without overflow checks, the latter with claimed lengths that fit into usize", "why_tests_cant": "links are changed in states the algorithm was never meant for; tests see only the states of well-behaved puzzles", "anchors": ["src/structures/dancing_links/node.rs:cover_column", "src/structures/dancing_links/node.rs:uncover_column", "src/structures/dancing_links/mod.rs:solve_helper", "src/structures/dancing_links/mod.rs:drop"]}
{"id": "C117", "title": "Debug texts determine the value and are printable", "statement": "The text that {:?} writes for an error determines the error within its type, including the offending character, number or rule; across the four error types two texts agree only for the variants NoSolution and InvalidDimensions, which several types have. Whatever input was rejected, the text contains only printable characters: quotes, backslashes, line breaks and other control characters are escaped. The text of what create_maze returns determines the grid and the solution.", "quantifier": "all errors with all characters and rules, all mazes and paths, all tables of printable characters", "why_tests_cant": "the characters and rules in errors are unbounded; no test formats an error", "anchors": ["src/puzzles/maze/mod.rs:MazeError", "src/puzzles/maze/mod.rs:MazeNode", "src/puzzles/maze/mod.rs:MazeDirection", "src/puzzles/sudoku/mod.rs:SudokuError", "src/puzzles/nonogram/mod.rs:NonogramError", "src/puzzles/nonogram/mod.rs:Square", "src/structures/dancing_links/mod.rs:DancingLinksError"]}
{"id": "C12", "title": "DancingMatrix manages memory correctly", "statement": "Building a matrix, solving it (with either outcome) and dropping it never dereferences null or freed memory, never frees twice, and leaves no node allocated.", "quantifier": "every finite list of duplicate-free constraints and every search path", "why_tests_cant": "the search path depends on data; leaks and use-after-free need the whole history", "anchors": ["src/structures/dancing_links/mod.rs", "src/structures/dancing_links/node.rs"]}
{"id": "C13", "title": "Backtracking restores the links exactly", "statement": "Covering a column and later uncovering it restores every pointer and counter of the matrix to its previous value, and an unsuccessful search returns the matrix in exactly the state it found it in.", "quantifier": "every well-formed matrix state and column", "why_tests_cant": "must hold at every depth of every search", "anchors": ["src/structures/dancing_links/node.rs:Node::cover_column", "src/structures/dancing_links/node.rs:Node::uncover_column", "src/structures/dancing_links/mod.rs:solve_helper"]}
{"id": "C14", "title": "add_solution fixes a row", "statement": "After successfully adding rows that are pairwise compatible, solve returns Ok(s) iff some exact cover contains all the added rows, s then starts with the added rows in order and is an exact cover; memory is managed correctly throughout.", "quantifier": "every matrix and every sequence of pairwise non-conflicting live rows", "why_tests_cant": "all operation histories", "anchors": ["src/structures/dancing_links/mod.rs:add_solution"]}
{"id": "C15", "title": "A rejected add_solution leaves the matrix unchanged", "statement": "When add_solution returns an error (index out of range or row not available) the matrix, including the rows already chosen, is as before the call, and a row conflicting with an earlier one is always rejected with InvalidRow.", "quantifier": "every matrix, history and row", "why_tests_cant": "all operation histories", "anchors": ["src/structures/dancing_links/mod.rs:add_solution"]}
{"id": "C16", "title": "DisjointSet tracks exactly the partition generated by the unions", "statement": "After any sequence of add/find/common_set/union calls, common_set(i,j) = Some(true) iff i and j are connected by the unions performed so far, Some(false) if not; find(i)=find(j) iff connected; find returns a member of i's set.", "quantifier": "every sequence of operations on sets of every size", "why_tests_cant": "unbounded operation histories", "anchors": ["src/structures/disjoint_set.rs"]}
{"id": "C17", "title": "DisjointSet queries do not change the partition and reject bad indices", "statement": "find, common_set and union return None exactly when an index is out of range, never panic or loop, and find/common_set (and failed unions) leave the partition and every representative unchanged although they compress paths.", "quantifier": "every reachable set and every index", "why_tests_cant": "path compression mutates on reads; every history matters", "anchors": ["src/structures/disjoint_set.rs:find", "src/structures/disjoint_set.rs:common_set"]}
{"id": "C18", "title": "DisjointSet recursion depth is logarithmic", "statement": "In every reachable set, the number of parent steps from an element to its representative is at most log2 of the size of its class, so find cannot overflow the stack; representative counters equal class sizes. For every k some set with 2^k elements has depth k.", "quantifier": "every reachable set", "why_tests_cant": "depends on the whole history of unions", "anchors": ["src/structures/disjoint_set.rs:union", "src/structures/disjoint_set.rs:find_helper"]}
{"id": "C19", "title": "choose_random removes exactly one element", "statement": "choose_random returns None iff the vector is empty; otherwise it returns an element and leaves the others: returned element plus remaining vector is a permutation of the original, for every random outcome.", "quantifier": "every vector and every random outcome", "why_tests_cant": "random outcome not controlled by a test", "anchors": ["src/util.rs:choose_random"]}
{"id": "C20", "title": "create_maze terminates without panicking", "statement": "For every width, height >= 1 and every outcome of the random generator, create_maze terminates without panicking and returns a grid of width*height cells; with a zero dimension it panics.", "quantifier": "all dimensions, all random outcomes", "why_tests_cant": "random; no unit test exists for mazes", "anchors": ["src/puzzles/maze/mod.rs:create_maze", "src/puzzles/maze/recursive_backtrack.rs:recursive_backtrack"]}
{"id": "C21", "title": "create_maze generates a perfect maze", "statement": "In the maze returned by create_maze any two cells are joined by exactly one simple path through open passages, and exactly width*height-1 passages are open.", "quantifier": "all dimensions >= 1, all random outcomes", "why_tests_cant": "random; combinatorial", "anchors": ["src/puzzles/maze/recursive_backtrack.rs:recursive_backtrack", "src/puzzles/maze/mod.rs:create_maze"]}
{"id": "C22", "title": "create_maze keeps the outer boundary closed except one exit", "statement": "Every right wall in the last column is present, and every bottom wall in the last row is present except exactly one, the exit.", "quantifier": "all dimensions >= 1, all random outcomes", "why_tests_cant": "random", "anchors": ["src/puzzles/maze/mod.rs:create_maze"]}
{"id": "C23", "title": "The returned maze solution leads from the start to the exit", "statement": "Following the returned directions in reverse order from cell 0 moves through open passages only and ends at the exit cell.", "quantifier": "all dimensions >= 1, all random outcomes", "why_tests_cant": "random", "anchors": ["src/puzzles/maze/mod.rs:create_maze"]}
{"id": "C24", "title": "The solution is shortest and the exit farthest", "statement": "The returned solution has the length of a shortest path from cell 0 to the exit, and no bottom-row cell is farther from cell 0 than the exit.", "quantifier": "all dimensions >= 1, all random outcomes", "why_tests_cant": "random", "anchors": ["src/puzzles/maze/mod.rs:create_maze"]}
{"id": "C25", "title": "print_maze draws exactly the walls", "statement": "print_maze returns an image of size (10*width+1) x (10*height+1) in which a pixel is black iff it lies on the left border, on the top border outside the entrance gap (columns 1-9), or on a present wall of some cell, and white otherwise.", "quantifier": "every grid whose dimensions match (image dimensions within u32, at most 2^32 cells)", "why_tests_cant": "all wall patterns of all sizes", "anchors": ["src/puzzles/maze/mod.rs:print_maze"]}
{"id": "C26", "title": "print_maze rejects mismatched dimensions and never writes out of bounds", "statement": "print_maze returns InvalidDimensions iff width*height differs from the grid length, and otherwise never panics unless the image dimensions overflow u32 or the image buffer needs 2^63 bytes or more (2^31 with 32-bit words), or, with 32-bit words, width*height does not fit usize.", "quantifier": "all dimensions and grids, 32- and 64-bit words", "why_tests_cant": "all sizes", "anchors": ["src/puzzles/maze/mod.rs:print_maze"]}
{"id": "C27", "title": "print_maze_solution stays inside the image and only paints red", "statement": "print_maze_solution never panics or writes out of bounds; it returns InvalidDimensions iff the image is smaller than 6x6; on success the image has the same size and each pixel is either unchanged or red.", "quantifier": "every image (dimensions below 2^32-16) and every direction list", "why_tests_cant": "all paths over all image sizes", "anchors": ["src/puzzles/maze/mod.rs:print_maze_solution"]}
{"id": "C28", "title": "A created maze's solution can be drawn on its printed image", "statement": "For every maze from create_maze, print_maze_solution applied to the print_maze image and the returned solution succeeds.", "quantifier": "all dimensions >= 1, all random outcomes", "why_tests_cant": "random", "anchors": ["src/puzzles/maze/mod.rs:create_maze", "src/puzzles/maze/mod.rs:print_maze", "src/puzzles/maze/mod.rs:print_maze_solution"]}
{"id": "C29", "title": "print_maze_solution accepts every path that stays inside the image", "statement": "print_maze_solution returns InvalidSolution only if the path leaves the image.", "quantifier": "every image and direction list", "why_tests_cant": "all paths", "anchors": ["src/puzzles/maze/mod.rs:print_maze_solution"]}
{"id": "C30", "title": "parse_nonogram_rules accepts exactly the rule grammar", "statement": "parse_nonogram_rules returns Ok(rules) iff the text is a ';'-separated list of ','-separated decimal numbers (optional '+', at least one digit, value within usize) and each rule's minimal length (sum plus number of gaps) is at most the bound; rules are the numbers in order.", "quantifier": "every string and bound (sums within usize)", "why_tests_cant": "all strings", "anchors": ["src/puzzles/nonogram/mod.rs:parse_nonogram_rules"]}
{"id": "C31", "title": "parse_nonogram_rules reports the first error", "statement": "Errors are reported for the leftmost offending rule: InvalidRule with the first unparsable item of that rule, or InvalidRuleDimension if all its items parse but it does not fit the bound.", "quantifier": "every string and bound (sums within usize)", "why_tests_cant": "all strings", "anchors": ["src/puzzles/nonogram/mod.rs:parse_nonogram_rules"]}
{"id": "C32", "title": "Every accepted nonogram rule fits the bound, without panic", "statement": "parse_nonogram_rules never panics, and every rule it returns has sum plus gaps at most the bound.", "quantifier": "every string and bound", "why_tests_cant": "integer overflow needs extreme inputs", "anchors": ["src/puzzles/nonogram/mod.rs:parse_nonogram_rules"]}
{"id": "C33", "title": "Nonogram rule text round-trips", "statement": "Printing any non-empty list of non-empty rules (numbers within usize, fitting the bound) in decimal with ',' and ';' and parsing it gives the rules back.", "quantifier": "every list of rules", "why_tests_cant": "all rules", "anchors": ["src/puzzles/nonogram/mod.rs:parse_nonogram_rules"]}
{"id": "C34", "title": "solve_nonogram deductions are sound", "statement": "If solve_nonogram returns Ok(g), every cell that is true in g is true in every solution of the puzzle.", "quantifier": "every puzzle; a clue number 0 is read as a block without squares", "why_tests_cant": "soundness over all puzzles and all their solutions", "anchors": ["src/puzzles/nonogram/mod.rs:solve_nonogram", "src/puzzles/nonogram/right_left.rs:RuleMachine::right_left", "src/puzzles/nonogram/right_left.rs:find_left"]}
{"id": "C35", "title": "solve_nonogram answers NoSolution only for unsolvable puzzles", "statement": "If solve_nonogram returns Err(NoSolution), the puzzle has no solution.", "quantifier": "every puzzle; a clue number 0 is read as a block without squares", "why_tests_cant": "absence of solutions cannot be tested", "anchors": ["src/puzzles/nonogram/mod.rs:solve_nonogram"]}
{"id": "C36", "title": "solve_nonogram returns a solution", "statement": "If solve_nonogram returns Ok(g), g satisfies all row and column clues.", "quantifier": "every puzzle; a clue number 0 is read as a block without squares", "why_tests_cant": "all puzzles", "anchors": ["src/puzzles/nonogram/mod.rs:solve_nonogram", "src/puzzles/nonogram/mod.rs:recursive_backtrack"]}
{"id": "C37", "title": "A returned grid that satisfies the clues is the unique solution", "statement": "If solve_nonogram returns Ok(g) and g satisfies all clues, then g is the only solution; and whenever the line deductions determine every cell, g does satisfy all clues.", "quantifier": "every puzzle; a clue number 0 is read as a block without squares", "why_tests_cant": "uniqueness quantifies over all fillings", "anchors": ["src/puzzles/nonogram/mod.rs:solve_nonogram"]}
{"id": "C38", "title": "solve_nonogram terminates without panicking", "statement": "solve_nonogram terminates and does not panic for every input its parser can produce.", "quantifier": "every list of column and row rules, including zeros and empty lists", "why_tests_cant": "fixpoint iteration on every puzzle", "anchors": ["src/puzzles/nonogram/mod.rs:solve_nonogram", "src/puzzles/nonogram/mod.rs:right_left", "src/puzzles/nonogram/right_left.rs:find_left"]}
{"id": "C39", "title": "Leftmost line placement is computed exactly", "statement": "For a line of any length and any partial knowledge, the line matcher returns None iff no filling of the line is compatible with the clue and the known squares; otherwise it returns a compatible filling in which every block is as far left as in any compatible filling.", "quantifier": "every rule whose first number is not 0 and every partially known line (otherwise the matcher panics)", "why_tests_cant": "exponentially many fillings", "anchors": ["src/puzzles/nonogram/right_left.rs:find_left"]}
{"id": "C40", "title": "solve_nonogram does not depend on orientation", "statement": "Exchanging the roles of rows and columns transposes the result (and gives NoSolution in the same cases).", "quantifier": "every puzzle in which no clue begins or ends with 0", "why_tests_cant": "relates two runs on every puzzle", "anchors": ["src/puzzles/nonogram/mod.rs:right_left", "src/puzzles/nonogram/mod.rs:solve_nonogram"]}
{"id": "C41", "title": "print_nonogram draws the grid within bounds", "statement": "print_nonogram returns InvalidDimensions iff the counts do not match; otherwise (image sides below 2^31, as the coordinates are passed on as i32) it does not panic, the image has size (50*w+max(150,10*w)) x (50*h+max(150,10*h)), and exactly the grid-line pixels are gray while all other pixels are as left by the text drawing.", "quantifier": "all clue lists; every behaviour of the text renderer that keeps the image size", "why_tests_cant": "all sizes", "anchors": ["src/puzzles/nonogram/mod.rs:print_nonogram"]}
{"id": "C42", "title": "print_nonogram_solution paints exactly the filled cells", "statement": "print_nonogram_solution returns InvalidDimensions iff grid length or image size do not match; otherwise a pixel becomes black iff it lies in the 49x49 interior of a filled cell, and every other pixel is unchanged.", "quantifier": "all grids and images (dimensions within i32)", "why_tests_cant": "all sizes and contents", "anchors": ["src/puzzles/nonogram/mod.rs:print_nonogram_solution"]}
{"id": "C43", "title": "print_sudoku draws the grid within bounds", "statement": "print_sudoku returns InvalidSize(n) iff n != 81; otherwise it never writes out of bounds, and before the digits are drawn a pixel of the 900x900 image is black iff it lies on a cell line (multiple of 100) or next to a box line (300, 600), else white; digits are drawn exactly for the non-zero entries, at their cell.", "quantifier": "all byte vectors; every behaviour of the text renderer", "why_tests_cant": "all grids", "anchors": ["src/puzzles/sudoku/mod.rs:print_sudoku"]}
{"id": "C44", "title": "The line deduction decides exactly the squares fixed by block", "statement": "RuleMachine::right_left on a line returns NoSolution iff the line has no filling compatible with its clue and known squares; otherwise known squares are kept, a blank square becomes Filled (Blocked) iff in every compatible filling it is filled by the same block (lies in the gap after the same block), and the returned flag says whether anything changed.", "quantifier": "all clues not beginning or ending with 0 and all lines of any length with any partial knowledge", "why_tests_cant": "it quantifies over all compatible fillings of all lines; tests check a few lines", "anchors": ["src/puzzles/nonogram/right_left.rs:RuleMachine::right_left", "src/puzzles/nonogram/right_left.rs:find_left"]}
{"id": "C45", "title": "solve_nonogram computes the least grid closed under line deductions", "statement": "The repeated deduction ends in the least (least informative) grid, containing the starting information, in which no line forces a further square; NoSolution is returned iff no such grid exists; so the result does not depend on the order of the lines, and running the deduction again on its result changes nothing.", "quantifier": "all puzzles in which no clue begins or ends with 0 and all starting grids; both build profiles", "why_tests_cant": "minimality and order independence quantify over all grids", "anchors": ["src/puzzles/nonogram/mod.rs:right_left", "src/puzzles/nonogram/mod.rs:solve_nonogram"]}
{"id": "C46", "title": "The line deduction decides every square with a constant value", "statement": "If a blank square has the same value in every filling compatible with the clue and the known squares, one application of the line deduction decides it.", "quantifier": "all clues and lines", "why_tests_cant": "it quantifies over all compatible fillings", "anchors": ["src/puzzles/nonogram/right_left.rs:RuleMachine::right_left"]}
{"id": "C47", "title": "The generator yields exactly the depth-first spanning trees", "statement": "A maze can be the result of recursive_backtrack for some outcome of the random choices iff it is closed around its border, joins any two cells by exactly one simple path, and of any two neighbouring cells one lies on the path from the first cell to the other.", "quantifier": "all sizes that fit into memory; all random outcomes; all mazes", "why_tests_cant": "it characterises the set of all reachable outputs; tests see a few random samples", "anchors": ["src/puzzles/maze/recursive_backtrack.rs:recursive_backtrack", "src/puzzles/maze/recursive_backtrack.rs:visit_next"]}
{"id": "C48", "title": "Every perfect maze can be generated", "statement": "For every size and every perfect maze of that size there are random choices for which create_maze returns a maze with the same passages.", "quantifier": "all sizes and all perfect mazes", "why_tests_cant": "it asks for reachability of every output", "anchors": ["src/puzzles/maze/recursive_backtrack.rs:recursive_backtrack", "src/puzzles/maze/recursive_backtrack.rs:visit_next"]}
{"id": "C49", "title": "The first cell is a dead end", "statement": "In every generated maze with at least two cells exactly one passage leaves the first cell.", "quantifier": "all sizes that fit into memory; all random outcomes", "why_tests_cant": "it quantifies over all random outcomes", "anchors": ["src/puzzles/maze/recursive_backtrack.rs:recursive_backtrack", "src/puzzles/maze/recursive_backtrack.rs:visit_next"]}
{"id": "C50", "title": "The search returns the first cover in Algorithm X order", "statement": "For every matrix and compatible fixed rows, solve returns exactly what the list-level Algorithm X returns that branches on the first shortest remaining constraint and tries its rows in the given order: the same cover, with its rows in the same order, or no solution.", "quantifier": "all constraint lists without repeated rows inside a constraint; all compatible fixed rows", "why_tests_cant": "which of several covers is found, and when none is, depends on the links of the whole matrix at every step of the search; tests compare a handful of outputs", "anchors": ["src/structures/dancing_links/mod.rs:DancingMatrix::solve", "src/structures/dancing_links/mod.rs:DancingMatrix::solve_helper", "src/structures/dancing_links/node.rs:Node::cover_column"]}
{"id": "C51", "title": "DancingMatrix is safe for every list of constraints", "statement": "For every iterator of constraints, also ones that name a row more than once, DancingMatrix::new followed by solve (or by dropping the matrix) accesses only live nodes, frees every node exactly once, and solve decides exact cover.", "quantifier": "all finite lists of finite constraints", "why_tests_cant": "tests only use constraints without repetitions", "anchors": ["src/structures/dancing_links/mod.rs:DancingMatrix::new", "src/structures/dancing_links/mod.rs:DancingMatrix::solve", "src/structures/dancing_links/mod.rs:DancingMatrix::drop"]}
{"id": "C52", "title": "The exit is the last cell of the bottom row in breadth-first order", "statement": "For every width >= 2, every height and every sequence of random numbers, the solution create_maze returns (reversed) is a shortest walk to the exit, and every other cell of the bottom row has a shortest walk that is shorter, or equally long and earlier in the dictionary order Right < Down < Left < Up. Two runs that open the same passages return the same maze and the same solution.", "quantifier": "all sizes that fit in memory, all random sequences, all cells of the bottom row, all walks", "why_tests_cant": "ties between equally far exits arise only in some random mazes; the tests check a handful of fixed sizes and never compare with the other cells", "anchors": ["src/puzzles/maze/mod.rs:create_maze"]}
{"id": "C53", "title": "union returns the representative of the joined set", "statement": "For all indices i and j below the length, union(i, j) returns the root that find returns for both of them afterwards; the root is that of the larger of the two sets.", "quantifier": "all reachable disjoint-set states, all pairs of indices", "why_tests_cant": "the unit tests ignore the value returned by union, and the larger set depends on the whole history of unions", "anchors": ["src/structures/disjoint_set.rs:DisjointSet::union"]}
{"id": "C54", "title": "Solving commutes with mirroring", "statement": "For every nonogram in which no clue begins or ends with 0, exchanging left and right (or top and bottom) in the clues gives the mirrored answer, or the same error.", "quantifier": "all clue lists of all sizes", "why_tests_cant": "tests compare a few fixed grids; the leftmost and rightmost passes treat the two directions differently, so symmetry is not evident from the code", "anchors": ["src/puzzles/nonogram/mod.rs:solve_nonogram", "src/puzzles/nonogram/right_left.rs:RuleMachine::right_left"]}
{"id": "C55", "title": "The clue 0 denotes an empty line", "statement": "The parser cannot express an empty rule, so a line without filled squares is written 0. Every puzzle that is solvable when zeros stand for no block is solved.", "quantifier": "all clue texts and all clue lists containing zeros", "why_tests_cant": "no test has an empty line, and a panic depends on the lines solved before the zero is reached", "anchors": ["src/puzzles/nonogram/mod.rs:parse_nonogram_rules", "src/puzzles/nonogram/mod.rs:solve_nonogram", "src/puzzles/nonogram/right_left.rs:RuleMachine::new", "src/puzzles/nonogram/right_left.rs:find_left"]}
{"id": "C56", "title": "Recursion depth of the exact cover search", "statement": "If every row is in at least w constraints, DancingMatrix::solve never nests more than (number of constraints) / w + 1 calls of solve_helper, less the rows added before. Solving a Sudoku needs at most 82 minus the number of clues nested calls.", "quantifier": "all matrices whose rows are in at least w constraints, all Sudoku puzzles", "why_tests_cant": "the depth depends on the whole search tree, of which a test sees only the part before its first solution", "anchors": ["src/structures/dancing_links/mod.rs:DancingMatrix::solve_helper", "src/puzzles/sudoku/mod.rs:solve_sudoku"]}
{"id": "C57", "title": "The printed image determines the maze", "statement": "If print_maze gives images of the same size with the same pixels, the mazes have the same size and the same walls.", "quantifier": "all pairs of mazes that can be printed", "why_tests_cant": "a test compares few images; that no wall is hidden behind another one is a statement about all mazes", "anchors": ["src/puzzles/maze/mod.rs:print_maze"]}
{"id": "C58", "title": "A drawn solution hides a wall iff it is wrong", "statement": "When print_maze_solution accepts a list of directions on the image of a maze, all black pixels stay black iff the walk passes only through openings and ends in a cell that is open at the bottom.", "quantifier": "all mazes, all accepted lists of directions", "why_tests_cant": "relates every pixel of two drawing functions to reachability in the maze", "anchors": ["src/puzzles/maze/mod.rs:print_maze", "src/puzzles/maze/mod.rs:print_maze_solution"]}
{"id": "C59", "title": "Drawing a nonogram solution keeps the grid lines", "statement": "Every grey pixel of the grid lines drawn by print_nonogram is still grey after print_nonogram_solution.", "quantifier": "all puzzles, all grids, all pixels", "why_tests_cant": "the existing tests do not look at pixels", "anchors": ["src/puzzles/nonogram/mod.rs:print_nonogram", "src/puzzles/nonogram/mod.rs:print_nonogram_solution"]}
{"id": "C60", "title": "Column clues are written above the grid", "statement": "For every clue that fits the height, print_nonogram begins each number of a column clue above the first row of squares.", "quantifier": "all heights, all column clues that parse_nonogram_rules accepts", "why_tests_cant": "depends on the longest clue possible for each height; the tests print small puzzles only", "anchors": ["src/puzzles/nonogram/mod.rs:print_nonogram"]}
{"id": "C61", "title": "The picture of a nonogram solution determines the grid", "statement": "If no square of the image is black throughout beforehand, different grids give different images.", "quantifier": "all sizes, all images, all pairs of grids", "why_tests_cant": "a statement about pairs of all grids", "anchors": ["src/puzzles/nonogram/mod.rs:print_nonogram_solution"]}
{"id": "C62", "title": "A solved nonogram can be drawn on its printed puzzle", "statement": "For all clues: if print_nonogram and solve_nonogram succeed then print_nonogram_solution accepts both results, and every pixel it changes within a square is black and belongs to a square that is filled in every solution of the puzzle.", "quantifier": "all clue lists, all text renderers that keep the image size, all solutions", "why_tests_cant": "combines the size computations of two printing functions with soundness of the solver", "anchors": ["src/puzzles/nonogram/mod.rs:print_nonogram", "src/puzzles/nonogram/mod.rs:print_nonogram_solution", "src/puzzles/nonogram/mod.rs:solve_nonogram"]}
{"id": "C63", "title": "Solving a Sudoku commutes with the symmetries of Sudoku", "statement": "Exchanging rows and columns, permuting rows within bands, columns within stacks, bands and stacks, and renaming digits do not change whether solve_sudoku finds a solution; if the solution is unique, the answer to the changed puzzle is the changed answer.", "quantifier": "all puzzles, all symmetries (any permutation of the cells that takes units to units, any renaming of the digits)", "why_tests_cant": "there are more than 10^12 symmetries, and the search order is different for each", "anchors": ["src/puzzles/sudoku/mod.rs:solve_sudoku"]}
{"id": "C64", "title": "Overflow checks only add panics", "statement": "For every input, a build with overflow checks panics or returns exactly what the build without checks returns; so an answer given with checks is never affected by wrapping.", "quantifier": "all inputs of all functions that do integer arithmetic, including those far beyond the documented sizes; 32- and 64-bit words", "why_tests_cant": "tests run in one build profile at a time", "anchors": ["src/puzzles/maze/mod.rs:create_maze", "src/puzzles/maze/mod.rs:print_maze", "src/puzzles/maze/mod.rs:print_maze_solution", "src/puzzles/nonogram/mod.rs:parse_nonogram_rules", "src/puzzles/nonogram/mod.rs:solve_nonogram", "src/puzzles/nonogram/mod.rs:print_nonogram", "src/puzzles/nonogram/mod.rs:print_nonogram_solution"]}
{"id": "C65", "title": "find compresses paths and does nothing else", "statement": "find links every element on the way from its argument to the representative directly to that representative and leaves all other elements as they were; afterwards these elements are at most one link away from it.", "quantifier": "all histories of operations, all elements", "why_tests_cant": "that finding changes nothing observable but speeds up later calls cannot be seen from return values", "anchors": ["src/structures/disjoint_set.rs:DisjointSet::find"]}
{"id": "C66", "title": "A maze takes at most 4wh random numbers", "statement": "create_maze is determined by the first 4wh random numbers: each direction of each cell is drawn at most once.", "quantifier": "all sizes that fit into memory, all random number generators", "why_tests_cant": "a test sees one generator at a time and cannot vary the numbers never drawn", "anchors": ["src/puzzles/maze/mod.rs:create_maze", "src/util.rs:choose_random"]}
{"id": "C67", "title": "Every cell is drawn at its own place, at any size", "statement": "print_maze and print_nonogram_solution draw every cell of the grid at its own place, for every size whose image fits into u32 and memory.", "quantifier": "all grids whose image can be created, including those with more than 2^32 cells; 64-bit words (with 32-bit words such images do not fit in memory, see C111)", "why_tests_cant": "grids with more than 2^32 cells do not fit into a test", "anchors": ["src/puzzles/maze/mod.rs:print_maze", "src/puzzles/nonogram/mod.rs:print_nonogram_solution"]}
{"id": "C68", "title": "Error texts determine the error", "statement": "Two errors with the same text are equal: the text shows the kind of the error and the offending character, number of entries or rule.", "quantifier": "all errors of all four error types, with any character, number or text inside", "why_tests_cant": "the offending values are arbitrary strings and numbers", "anchors": ["src/puzzles/maze/mod.rs:MazeError", "src/puzzles/sudoku/mod.rs:SudokuError", "src/puzzles/nonogram/mod.rs:NonogramError", "src/structures/dancing_links/mod.rs:DancingLinksError"]}
{"id": "C69", "title": "Which completion of a Sudoku is found", "statement": "For a puzzle without clashing clues, solve_sudoku returns the completion found by a trial search on the grid itself: take the first of the questions 'which digit in this cell' / 'where in this row, column or box does this digit go' with the fewest legal answers and try its answers in order; NoSolution if that search fails.", "quantifier": "all puzzles of 81 entries 0-9 without clashing clues, however many completions they have", "why_tests_cant": "a test cannot enumerate all ambiguous puzzles, and there is nothing to compare the answer with without a second search", "anchors": ["src/puzzles/sudoku/mod.rs:solve_sudoku", "src/structures/dancing_links/mod.rs:DancingLinksMatrix::solve"]}
{"id": "C70", "title": "Line deduction is a closure operator", "statement": "Deducing squares of a single nonogram line only adds information, keeps exactly the same fillings possible, changes nothing when applied again, and never yields less when more squares are known beforehand.", "quantifier": "all clues not beginning or ending with 0 and all partially known lines", "why_tests_cant": "comparing a line with every refinement of it and every filling is exponential in its length", "anchors": ["src/puzzles/nonogram/right_left.rs:RuleMachine::right_left"]}
{"id": "C71", "title": "Blank lines: the overlap rule", "statement": "On a blank line with s squares to spare the deduction fills exactly the squares covered by the same block when all blocks are pushed left and when they are pushed right, crosses squares out only if s = 0, reports a change iff some block is longer than s, and reports NoSolution iff the clue does not fit.", "quantifier": "all non-empty clues of positive numbers and all line lengths", "why_tests_cant": "clues and lengths are unbounded", "anchors": ["src/puzzles/nonogram/right_left.rs:RuleMachine::right_left"]}
{"id": "C72", "title": "Sudoku from text to text", "statement": "A text that some completed grid agrees with outside its zeros is parsed and solved, and the answer written as digits is such a completed grid; every answer is, and is itself accepted as a puzzle with itself as the answer.", "quantifier": "all texts", "why_tests_cant": "there are 10^81 puzzle texts", "anchors": ["src/puzzles/sudoku/mod.rs:parse_sudoku", "src/puzzles/sudoku/mod.rs:solve_sudoku"]}
{"id": "C73", "title": "Mazes are distributed as by the unbiased depth-first walk", "statement": "With fair random numbers, the maze has the distribution of the walk that goes from the current cell to each unvisited neighbour with the same probability and goes back if there is none; drawing directions that lead nowhere and drawing again introduces no bias.", "quantifier": "all sizes, all functions of the maze whose expected value is taken", "why_tests_cant": "a test sees samples, not probabilities", "anchors": ["src/puzzles/maze/recursive_backtrack.rs:recursive_backtrack", "src/util.rs:choose_random"]}
{"id": "C74", "title": "Exchanging rows and columns keeps the distribution", "statement": "A maze of size w x h and its transpose of size h x w are generated with the same probability.", "quantifier": "all sizes and all mazes", "why_tests_cant": "a test sees samples, not probabilities", "anchors": ["src/puzzles/maze/recursive_backtrack.rs:recursive_backtrack", "src/util.rs:choose_random"]}
{"id": "C75", "title": "All mazes are equally likely", "statement": "All mazes of a given size that can be generated at all have the same probability.", "quantifier": "all sizes and all pairs of mazes that can be generated", "why_tests_cant": "a test sees samples, not probabilities", "anchors": ["src/puzzles/maze/recursive_backtrack.rs:recursive_backtrack", "src/util.rs:choose_random"]}
{"id": "C76", "title": "The first passage is fair", "statement": "The passage that leaves the first cell leads to the right with probability exactly 1/2.", "quantifier": "all sizes with at least two rows and columns", "why_tests_cant": "a test sees samples, not probabilities", "anchors": ["src/puzzles/maze/recursive_backtrack.rs:recursive_backtrack", "src/util.rs:choose_random"]}
{"id": "C77", "title": "Shape and length of the maze solution", "statement": "The solution of a w x h maze has at least w + h - 2 and at most w * h - 1 steps, both attained for every size; for width at least 2 its steps down exceed its steps up by h - 1 and its steps right exceed its steps left by the column of the exit; no step takes back the one before.", "quantifier": "all widths, heights and random draws", "why_tests_cant": "it quantifies over all mazes of all sizes and states that the bounds are attained", "anchors": ["src/puzzles/maze/mod.rs:create_maze", "src/puzzles/maze/mod.rs:solution"]}
{"id": "C78", "title": "Every tour of the grid is a possible maze", "statement": "Every walk from cell 0 that visits all cells exactly once is the set of passages of a maze generated by suitable draws; the solution is the part of the walk up to the last cell of the last row it visits.", "quantifier": "all sizes and all such walks", "why_tests_cant": "it states the existence of random draws for every walk", "anchors": ["src/puzzles/maze/recursive_backtrack.rs:recursive_backtrack", "src/puzzles/maze/mod.rs:create_maze"]}
{"id": "C79", "title": "Printed puzzles show every number", "statement": "Two Sudokus, or two nonogram puzzles of the same size, whose printed images agree for every rendering of text are equal: every number is drawn, at a place that belongs to it, and numbers of a row are kept apart.", "quantifier": "all puzzles of 81 entries; all printable nonogram puzzles", "why_tests_cant": "it compares the images of all pairs of puzzles", "anchors": ["src/puzzles/sudoku/mod.rs:print_sudoku", "src/puzzles/nonogram/mod.rs:print_nonogram"]}
{"id": "C80", "title": "Nonograms without solution are reported", "statement": "If a nonogram has no solution, solve_nonogram answers NoSolution.", "quantifier": "all clues", "why_tests_cant": "it quantifies over all fillings of all puzzles", "anchors": ["src/puzzles/nonogram/mod.rs:solve_nonogram", "src/puzzles/nonogram/mod.rs:recursive_backtrack"]}
{"id": "C81", "title": "Probability of a single maze", "statement": "With fair random numbers exactly the depth-first spanning trees of the grid are generated with a positive probability, and each of them with probability at least 3^-(width*height-1).", "quantifier": "all widths and heights that can be stored, all mazes", "why_tests_cant": "a bound on a probability cannot be read off finitely many runs", "anchors": ["src/puzzles/maze/recursive_backtrack.rs:recursive_backtrack", "src/puzzles/maze/recursive_backtrack.rs:visit_next", "src/util.rs:choose_random"]}
{"id": "C82", "title": "Nonograms without freedom in their rows are decided", "statement": "If every row of a nonogram, or every column, can be filled in at most one way by itself (its clue is empty or leaves no square to spare), solve_nonogram returns the only solution, or NoSolution if there is none.", "quantifier": "all clues without zero at either end, all sizes whose squares can be counted in usize", "why_tests_cant": "a test tries finitely many puzzles; the claim covers all column clues, consistent or not", "anchors": ["src/puzzles/nonogram/mod.rs:solve_nonogram", "src/puzzles/nonogram/right_left.rs:RuleMachine::right_left"]}
{"id": "C83", "title": "Sizes for which every nonogram with one solution is solved", "statement": "For a grid of width w >= 1 and height h >= 1: solve_nonogram returns the solution of every puzzle with exactly one solution if and only if w = 1, or h = 1, or both are at most 3. For every other size there is a puzzle with exactly one solution for which the answer is an empty picture.", "quantifier": "all sizes whose squares can be counted in usize, all positive clues", "why_tests_cant": "a single test can exhibit one missed puzzle; that there is none for small sizes and one for each larger size is a statement about all of them", "anchors": ["src/puzzles/nonogram/mod.rs:solve_nonogram"]}
{"id": "C84", "title": "A nonogram answer can be checked by counting", "statement": "Whenever solve_nonogram returns a grid, the number of its filled squares is at most the sum of all row clues and at most the sum of all column clues; it equals either of them if and only if the grid is a solution.", "quantifier": "all clues without zero at either end, all sizes whose squares can be counted in usize", "why_tests_cant": "tests compare single answers; the equivalence is about all puzzles, solvable or not", "anchors": ["src/puzzles/nonogram/mod.rs:solve_nonogram"]}
{"id": "C85", "title": "Probability of a maze that is one walk", "statement": "The maze whose passages are the steps of a walk from cell 0 through all cells has probability 1/p, where p is the product of the numbers of unvisited neighbours along the walk.", "quantifier": "all sizes with less than 2^63 cells (2^31 with 32-bit words) and all walks through all cells", "why_tests_cant": "a test sees samples, not probabilities", "anchors": ["src/puzzles/maze/recursive_backtrack.rs:recursive_backtrack", "src/util.rs:choose_random"]}
{"id": "C86", "title": "Work done for a maze", "statement": "Whenever create_maze succeeds, the main loop of recursive_backtrack has run 2wh-1 times, exactly 4wh random numbers were drawn, and the solver has taken more cells from its queue than the solution has steps, but at most wh.", "quantifier": "all random generators, all sizes with less than 2^63 cells (2^31 with 32-bit words)", "why_tests_cant": "counters are not visible from outside; tests only see some sizes and seeds", "anchors": ["src/puzzles/maze/recursive_backtrack.rs:recursive_backtrack", "src/puzzles/maze/mod.rs:create_maze"]}
{"id": "C87", "title": "Work done for a nonogram", "statement": "solve_nonogram looks at every line once per round; every round but the last decides a square, so there are at most wh+1 rounds and (wh+1)(w+h) line deductions.", "quantifier": "all clues, all sizes whose squares can be counted in usize, with at least one row or at most one column", "why_tests_cant": "counters are not visible from outside; tests only see single puzzles", "anchors": ["src/puzzles/nonogram/mod.rs:solve_nonogram", "src/puzzles/nonogram/mod.rs:right_left"]}
{"id": "C88", "title": "Work done by the exact cover search", "statement": "solve_helper is called exactly once for every partial selection that Algorithm X on plain lists looks at before it finds a cover; if every step is forced (in any order) there is one call per row and one more; a matrix has one node for the root, one per remaining constraint and one per remaining row in it.", "quantifier": "all constraint lists without repeated rows, all compatible added rows", "why_tests_cant": "the number of calls and nodes is not visible from outside; tests only see single matrices", "anchors": ["src/structures/dancing_links/mod.rs:solve_helper", "src/structures/dancing_links/mod.rs:solve", "src/structures/dancing_links/mod.rs:new"]}
{"id": "C89", "title": "Sudokus solved by singles need no trial", "statement": "A puzzle without clashing clues that can be completed by filling in cells with only one legal digit and digits with only one legal cell in a unit is solved with one call of solve_helper per empty cell and one more, so nothing is tried in vain, and has no other solution. In general there is one call per grid the search on plain grids looks at.", "quantifier": "all puzzles of 81 entries 0-9 without clashing clues", "why_tests_cant": "the number of calls is not visible from outside and there are too many puzzles", "anchors": ["src/puzzles/sudoku/mod.rs:solve_sudoku", "src/structures/dancing_links/mod.rs:solve_helper"]}
{"id": "C90", "title": "Printed images can be encoded", "statement": "For every encoder that accepts all images that are not empty, image_to_png_bytes succeeds on every image returned by print_maze, print_maze_solution, print_sudoku, print_nonogram and print_nonogram_solution and returns what the encoder writes; for nonograms in builds without overflow checks this is so exactly if no side is an odd multiple of 2^30; with such a side the image is empty and an encoder that refuses empty images refuses it.", "quantifier": "all mazes, nonograms and Sudokus, all images given to the solution printers, all encoders and text renderers that keep the size, both build modes", "why_tests_cant": "sizes near 2^30 cannot be tested and the sizes are never checked before encoding", "anchors": ["src/lib.rs:image_to_png_bytes", "src/puzzles/maze/mod.rs:print_maze", "src/puzzles/maze/mod.rs:print_maze_solution", "src/puzzles/nonogram/mod.rs:print_nonogram", "src/puzzles/nonogram/mod.rs:print_nonogram_solution", "src/puzzles/sudoku/mod.rs:print_sudoku"]}
{"id": "C91", "title": "Work done for a line of a nonogram", "statement": "find_left stops one square behind the last block of the filling it finds and goes once over the whole line if there is none; in each pass it looks at every state at most once and at the rest of the line at most once. So solve_nonogram needs at most (wh+1)(w(h+1)(3h+11)+h(w+1)(3w+11)) loop iterations for clues that fit, and a similar polynomial in the clues otherwise.", "quantifier": "all clues and all lines (the exact number of passes: clues not beginning or ending with 0), all grids whose squares can be counted in usize", "why_tests_cant": "loop iterations are not visible from outside; an exponential search in the line matcher would only show for some long lines", "anchors": ["src/puzzles/nonogram/right_left.rs:find_left", "src/puzzles/nonogram/right_left.rs:RuleMachine::right_left", "src/puzzles/nonogram/mod.rs:solve_nonogram"]}
{"id": "C92", "title": "Every simple walk is open in some maze", "statement": "For every walk from cell 0 between cells with a common side that visits no cell twice there are draws with which the generated maze has passages along the whole walk; conversely only such walks are open in a generated maze.", "quantifier": "all sizes and all such walks", "why_tests_cant": "it states the existence of random draws for every walk", "anchors": ["src/puzzles/maze/recursive_backtrack.rs:recursive_backtrack", "src/puzzles/maze/mod.rs:create_maze"]}
{"id": "C93", "title": "Columns that can have the exit", "statement": "The exit can be below each column except: with one row it is below the last column; with at least two rows and at least three columns it can be below column 1 only if there are at least four columns and three rows.", "quantifier": "all sizes and columns (equivalence: draws leading to the column exist exactly in the stated cases)", "why_tests_cant": "the impossible columns are a statement about all draws, the possible ones about rare draws", "anchors": ["src/puzzles/maze/mod.rs:create_maze", "src/puzzles/maze/recursive_backtrack.rs:recursive_backtrack"]}
{"id": "C94", "title": "Results do not depend on the addresses of nodes", "statement": "With every allocator that yields different non-null addresses the exact cover search and solve_sudoku give the same answers, fail alike and leave equally many nodes allocated.", "quantifier": "all allocators, constraint lists, rows, puzzles", "why_tests_cant": "tests run with the addresses the allocator happens to choose", "anchors": ["src/structures/dancing_links/mod.rs:new", "src/structures/dancing_links/node.rs:new", "src/structures/dancing_links/node.rs:new_header", "src/puzzles/sudoku/mod.rs:solve_sudoku"]}
{"id": "C95", "title": "Failing allocations cause no undefined behaviour", "statement": "If an allocation of a node fails, building the matrix has no undefined behaviour (false: the null pointer is written through).", "quantifier": "all allocators, constraint lists and positions of the failing allocation", "why_tests_cant": "tests do not run out of memory", "anchors": ["src/structures/dancing_links/mod.rs:new", "src/structures/dancing_links/node.rs:new", "src/structures/dancing_links/node.rs:new_header", "src/puzzles/sudoku/mod.rs:solve_sudoku"]}
{"id": "C96", "title": "Mazes from 32-bit random words are unbiased", "statement": "When choose_random gets its index from uniform 32-bit words, of which the rand crate refuses some, every index is equally likely; the maze has the distribution of the unbiased walk, k words suffice with probability at least 1 - (22/3)wh/k, and the mazes are those of the other maze theorems.", "quantifier": "all sizes, all lists of words, all functions of the maze whose expected value is taken", "why_tests_cant": "a test sees samples, not probabilities", "anchors": ["src/util.rs:choose_random", "src/puzzles/maze/recursive_backtrack.rs:recursive_backtrack"]}
{"id": "C97", "title": "Outcome of nonograms with zeros at the ends of clues", "statement": "A nonogram in which some clue begins or ends with 0 panics exactly if all lines before the first such clue can be filled (rows with squares that their columns can have), and that clue begins with 0 or can be filled itself; otherwise the result is NoSolution. Without rows and with two or more columns the result is a panic exactly if the first clue is empty or begins with 0. Together with C45 this is the outcome of every nonogram whose squares can be counted in usize; with more there is never an answer.", "quantifier": "all clue lists, both build profiles", "why_tests_cant": "infinitely many puzzles, and the outcome depends on lines other than the one with the zero", "anchors": ["src/puzzles/nonogram/mod.rs:solve_nonogram", "src/puzzles/nonogram/mod.rs:right_left", "src/puzzles/nonogram/right_left.rs:RuleMachine::right_left", "src/puzzles/nonogram/right_left.rs:find_left"]}
{"id": "C98", "title": "Overflow checks do not matter to the exact cover solver", "statement": "For every list of constraints none of which names a row twice, and every list of rows to add (out of range, in no constraint, conflicting or not), a build without overflow checks, in which the sizes of columns wrap around, gives the same outcome for every add_solution, the same answer of solve and the same nodes left as one with checks; solve_sudoku has the same outcome for every puzzle.", "quantifier": "all constraint lists without repetitions whose nodes can be counted in usize, 32- and 64-bit words, all lists of rows, all sudoku puzzles", "why_tests_cant": "one build runs in tests; that the sizes never wrap depends on the order of covering and uncovering in every search", "anchors": ["src/structures/dancing_links/mod.rs:DancingMatrix::new", "src/structures/dancing_links/mod.rs:DancingMatrix::add_solution", "src/structures/dancing_links/mod.rs:DancingMatrix::solve", "src/structures/dancing_links/node.rs:Node::cover_column", "src/structures/dancing_links/node.rs:Node::uncover_column", "src/puzzles/sudoku/mod.rs:solve_sudoku"]}
{"id": "C99", "title": "The work of the maze generator in its disjoint set", "statement": "For every sequence of random numbers the generator calls find of the disjoint set exactly twice for every cell and each of its neighbours and twice for every passage; no find makes more than one recursive call; together the finds make exactly 18wh - 8w - 8h - 7 calls of find_helper when w, h >= 2 (10wh - 13 when one of them is 1, none for one cell); and in the end every other cell refers directly to cell 0, the root with size wh.", "quantifier": "all widths and heights >= 1 with less than 2^63 cells (2^31 with 32-bit words), all random sequences, builds with and without overflow checks", "why_tests_cant": "a test runs some random sequences of some sizes and does not see the calls inside the disjoint set", "anchors": ["src/puzzles/maze/recursive_backtrack.rs:recursive_backtrack", "src/puzzles/maze/recursive_backtrack.rs:visit_next", "src/structures/disjoint_set.rs:find", "src/structures/disjoint_set.rs:find_helper", "src/structures/disjoint_set.rs:common_set", "src/structures/disjoint_set.rs:union"]}
