# Formal model of J164/puzzles-api in Rocq (Coq 8.16.1)

## Approach

Every function of the crate that contains logic is transcribed to an executable
Gallina function.  A Rust function that can fail at run time returns
`res A = Ret a | Fault f` with `f` one of `Panic` (index out of range, failed
`expect`, `unreachable!`, overflow with overflow checks, division by zero), `UB`
(load, store or free through a null or freed pointer) and `OutOfFuel` (a loop
was cut off; every theorem whose conclusion is `= Ret ...` excludes it).
`Result` and `Option` of Rust stay data.

* u32/usize arithmetic that can overflow goes through checked operations
  parameterised by `mode`: overflow checks (`Debug`, panic) or none (`Release`,
  wrap), and a usize of 32 or 64 bits (`word`).  A theorem `forall m` holds for
  all four builds; 16-bit machines are not covered.
  The sizes of columns in `Dlx` are unbounded, below zero is a panic; C98 shows
  that wrapping sizes give the same results.
* Raw pointers (`dancing_links/node.rs`) are addresses `N` (0 = null) into a
  finite map of live nodes.  `dealloc` removes the entry; touching a missing
  entry is `UB`.  Addresses are never reused, so every use after free is seen.
  The addresses are 1, 2, 3, ...; C94 shows that others give the same results.
  Node iterators are lazy and read the successor exactly when `next()` does.
* Randomness is an arbitrary function `nat -> nat` (k-th number drawn); theorems
  quantify over it.  `(0..len).choose` is the remainder of the number by `len`,
  so every index is possible.  Probabilities are means over lists of numbers
  (C73-C76, C81, C85); C96 replaces the numbers by 32-bit words, some of which
  `rand` 0.8.5 refuses (its published code is transcribed in `MazeWords`, it is
  not in /repo).
* Images are a size plus a pixel function; `put_pixel` outside the size is
  `Panic`.  Text rendering is an arbitrary size-preserving function.
* Strings are lists of Unicode scalar values.

## Files (rocq/theories)

| kind | files |
|------|-------|
| model, no proofs | `Base`, `Util`, `DisjointSet`, `Image`, `Maze`, `MazePrint`, `Dlx`, `Sudoku`, `Nonogram`, `NonogramPrint`, `ErrorText`, `DebugText`, `Png`, `Serde`, `SerdeBinary`; with counters `MazeCost`, `MazeFind`, `NonogramCost`, `NonogramLineCost`, `DlxCost`; with any allocator `DlxAlloc`; with wrapping sizes `DlxRelease`; with wrong lengths `DlxLen`; with unwinding panics `DlxUnwind`, `DlxCaught` and `DlxIter`; with capacity checks `MazeCapacity`, `NonogramCapacity`, `DlxCapacity`; with the rectangles of imageproc `NonogramRect`; with the sampling of `rand` `MazeWords` |
| specifications, independent of the model's functions | `SpecDisjointSet`, `SpecSudoku`, `SpecSudokuSym`, `SpecSudokuSearch`, `SpecSudokuText`, `SpecDlx`, `SpecDlxSearch`, `SpecMaze`, `SpecMazeDfs`, `SpecMazeExit`, `SpecMazeRandom`, `SpecMazeSolution`, `SpecMazeTour`, `SpecMazePrint`, `SpecNonogram`, `SpecNonogramDeduce`, `SpecNonogramMirror`, `SpecNonogramOverlap`, `SpecNonogramZero`, `SpecNonogramText`, `SpecMachine`, `SpecPrint`, `SpecNonogramRigid`, `SpecNonogramUnique`, `SpecNonogramSizes`, `SpecMazeRandomTour`, `SpecDlxCost`, `SpecPng`, `SpecLineCost`, `SpecMazeWalk`, `SpecDlxAlloc`, `SpecNonogramOutcome`, `SpecDlxRelease`, `SpecMazeFind`, `SpecPrintAll`, `SpecNonogramRect`, `SpecSerde`, `SpecNonogramChain`, `SpecDlxLen`, `SpecDlxHard`, `SpecDlxUnwind`, `SpecDisjointWork`, `SpecDlxCaught`, `SpecDlxIter`, `SpecDlxTame`, `SpecSerdeBinary`, `SpecDebugText`, `SpecLarge`, `SpecWord` |
| property theorems only, each with `Print Assumptions` and an `Example` | `PropBasics`, `PropSudokuParse`, `PropSudoku`, `PropSudokuSym`, `PropSudokuSearch`, `PropSudokuText`, `PropDlx`, `PropDlxSearch`, `PropDlxAny`, `PropDlxDepth`, `PropUnion`, `PropFind`, `PropMaze`, `PropMazeDraws`, `PropMazeDfs`, `PropMazeExit`, `PropMazeRandom`, `PropMazeSolution`, `PropMazePrint`, `PropMazeImage`, `PropNonogram`, `PropNonogramDeduce`, `PropNonogramMirror`, `PropNonogramOverlap`, `PropNonogramZero`, `PropNonogramText`, `PropNonogramImage`, `PropPrint`, `PropLarge`, `PropErrorText`, `PropPrintTexts`, `PropNonogramTotals`, `PropMazeBound`, `PropNonogramRigid`, `PropNonogramUnique`, `PropNonogramSizes`, `PropMazeTourRandom`, `PropCost`, `PropDlxCost`, `PropPng`, `PropLineCost`, `PropMazeWalk`, `PropDlxAlloc`, `PropMazeWords`, `PropNonogramOutcome`, `PropDlxRelease`, `PropMazeFind`, `PropMazeCapacity`, `PropNonogramCapacity`, `PropDlxCapacity`, `PropPrintAll`, `PropNonogramRect`, `PropSerde`, `PropPipeline`, `PropChain`, `PropDlxLen`, `PropDlxHard`, `PropDlxUnwind`, `PropWord`, `PropDlxCaught`, `PropSerdeBinary`, `PropDlxIter`, `PropDisjointWork`, `PropDlxTame`, `PropDebugText`, `PropMode` |
| the crate's unit tests run on the model | `RepoTests` |
| proofs | all others |

## Results per property

"proved" is a theorem for all inputs.  "refuted" means the property is false for
the code: the theorem `Cxx_refuted` gives a witness, and the `_partial` theorems
say what does hold.

| id | model | result and proof |
|----|-------|------------------|
| C01-C03 | `parse_sudoku` | proved, induction on the string |
| C04-C06, C09 | `solve_sudoku` over the pointer model | proved: pointer structure refines list-level Algorithm X, which decides exact cover, which is Sudoku.  Puzzles of 81 entries 0-9 for which C07 excludes the memory fault |
| C07 | same | refuted: equal clues in one row or column but different boxes make `add_solution` follow freed nodes.  The outcome of every puzzle is given |
| C08 | same | size check proved; rest refuted: an entry above 9 selects a row of another cell or is dropped.  The outcome for arbitrary bytes is given |
| C10 | `SUDOKU_CONSTRAINTS` | proved by arithmetic and a finite sweep |
| C11-C14 | `DancingMatrix` new/add_solution/solve/drop | proved: representation invariant, heap equality for cover and uncover, induction on search depth.  Constraints are lists without repetition |
| C15 | same | refuted: a rejected row stays in the partial solution; the outcome of every call is given |
| C16-C18 | `DisjointSet` | proved: invariant over operation sequences, abstraction to the equivalence closure; the depth of C18 is reached by merging trees of equal size (`DisjointTight`) |
| C19 | `choose_random` | proved |
| C20-C22, C24 | `create_maze` | proved: loop invariants (tree of visited cells, breadth-first levels), termination measure |
| C23 | same | proved for width >= 2; refuted for width 1, where a step down is reported as `Right` |
| C25, C26 | `print_maze` | proved, pixel-wise loop characterisation |
| C27 | `print_maze_solution` | proved, position invariant; images with sides below 2^32 - 10, a sharp bound (C27_sharp) |
| C28 | both | refuted, and for every created maze the drawing fails |
| C29 | `print_maze_solution` | refuted; C27 gives the exact condition |
| C30, C31, C33 | `parse_nonogram_rules` | proved, induction over the split text |
| C32 | same | refuted: the sum can overflow; exact condition per build profile |
| C34, C35, C37, C39 | `find_left`, `right_left`, `solve_nonogram` | proved for all clues (a zero is read as a block without squares; C34_reading relates this to maximal blocks): runs of the rule automaton, grid-level fixpoint induction; C39 for rules not beginning with 0, which panic |
| C36 | same | refuted: ambiguous puzzles give an unfinished grid; holds iff no square is left blank; exact sizes in `PropNonogramSizes` |
| C38 | same | refuted: clues beginning or ending with 0, and grids without rows, panic; otherwise proved, and solvable puzzles panic exactly in these cases |
| C40 | same | proved if no clue begins or ends with 0: the deduction is monotone, its least fixpoint does not depend on the order |
| C41-C43 | printing functions | proved, pixel-wise |
| C44 | `right_left` on a line | proved for clues not beginning or ending with 0: exactly which squares one application decides |
| C45 | deduction loop | proved: least grid closed under C44 |
| C46 | `right_left` on a line | refuted: not every square with a constant value is decided; proved for lines without decided squares and for filled squares of a single block; exact lengths in `PropNonogramSizes` (short lines by enumeration of pairs of fillings) |
| C47 | `recursive_backtrack` of mazes | proved: the possible results are exactly the depth-first spanning trees |
| C48 | same | refuted: not every perfect maze is possible; exact sizes, the comb being the missed maze |
| C49 | same | proved: the first cell is a dead end |
| C50 | `PropDlxSearch` | proved: `solve` returns what Algorithm X on plain lists (`SpecDlxSearch`) returns, so also which cover and in which order |
| C51 | `PropDlxAny` | refuted: a row repeated inside a constraint makes `solve` use freed nodes, panic, leak, miss the cover or recurse for ever, and without overflow checks answer wrongly (`DlxHang`: fuel monotonicity, and a heap that recurs on the next level); building and dropping is safe for every input, and so is solving if some constraint is empty (partial) |
| C52 | `PropMazeExit` | proved: every other cell of the bottom row comes before the exit in the order length, then Right < Down < Left < Up; the passages determine exit and solution |
| C53 | `PropUnion` | refuted: `union` returns the representative of the smaller set, which it makes a non-root; its result is given in every case |
| C54 | `PropNonogramMirror` | proved as C40: least fixpoints of mirrored puzzles correspond |
| C55 | `PropNonogramZero` | refuted: the automaton of a rule beginning with 0 panics on its first step; a puzzle with a clue beginning or ending with 0 is never solved; a zero inside a clue widens the gap |
| C56 | `PropDlxDepth` | proved: each level covers at least `w` constraints, so the number of uncovered constraints bounds the remaining levels |
| C57 | `PropMazeImage` | proved: each wall has a pixel of its own, in the middle of the side |
| C58 | `PropMazeImage` | proved: a line between centres meets a wall only in the middle of the side it crosses; induction over the walk |
| C59 | `PropNonogramImage` | refuted: thick lines lose their inner pixels; the middle pixels stay |
| C60 | `PropNonogramImage` | refuted for every height from 11; proved up to 10 |
| C61 | `PropNonogramImage` | proved |
| C62 | `PropNonogramImage` | proved from C34, C36, C41 and C42 |
| C63 | `PropSudokuSym` | proved from C04, C05 and C09: a symmetry maps completions to completions and has an inverse |
| C64 | `PropMode` | proved: holds for the arithmetic operations and is preserved by sequencing and loops; the operations themselves are compared with exact integers (`SpecMachine`) |
| C65 | `PropFind` | proved: induction on the length of the path |
| C66 | `PropMazeDraws` | proved: the generator's state counts the draws, and each draw removes a direction of a cell |
| C67 | `PropLarge` | refuted: cell numbers are taken modulo 2^32; the images of all sizes are given exactly |
| C68 | `PropErrorText` | proved by cases; decimal notation is injective |
| C69 | `PropSudokuSearch` | proved: the questions with their legal answers are the remaining constraints of the matrix (`open_step`), then C50 |
| C70 | `PropNonogramOverlap` | proved for clues not beginning or ending with 0, from C44 |
| C71 | `PropNonogramOverlap` | proved: the fillings of a blank line are the placements of the blocks, of which the leftmost and the rightmost decide what all have in common |
| C72 | `PropSudokuText` | proved from C01, C04, C05 and C09; the text of a grid is its digits one after the other |
| C73 | `PropMazeRandom` | proved: rejecting a direction and drawing again leaves the mean over the remaining ones (`mean_retry`), then induction over the loop of the model |
| C74 | `PropMazeRandom` | proved by C73 and renumbering the cells of the walk |
| C75 | `PropMazeRandom` | refuted by two 3 x 3 mazes; proved for at most two rows or columns (probability 2^-((w-1)(h-1))): in a new column exactly one of two choices leads to the given tree, otherwise all unvisited neighbours are its children; false for all other sizes (`PropMazeTourRandom`): the row-by-row tour has probability 1/2^a by C85, a tour whose third cell is (1,1) has 3 in the denominator |
| C76 | `PropMazeRandom` | proved by C73 and C49 |
| C77 | `PropMazeSolution` | proved from C21, C23, C24, C52; the bounds are attained by two tours (C78) |
| C78 | `PropMazeSolution` | proved: a tour is a depth-first spanning tree, hence generated by C47 |
| C79 | `PropPrintTexts` | proved with a renderer that reacts to a single text, from C41 and C43 |
| C80 | `PropNonogramTotals` | refuted for all non-square grids of ones (sums of clues differ, C80_totals); proved for a single row or column; exact sizes in `PropNonogramSizes` |
| C81 | `PropMazeBound` | by induction over the walk of C73: in every step at most three neighbours are unvisited, and one of them continues towards the given tree |
| C82 | `PropNonogramRigid` | from C45: in a line with a single filling no square can stay blank |
| C83 | `PropNonogramUnique` | sizes up to 3 x 3 by enumeration of all pictures, one line wide from C80; the missed family is a closed grid (C45) |
| C84 | `PropNonogramSizes` | a closed line with all its filled squares known has one filling, hence no blank square |
| C85 | `PropMazeTourRandom` | every other choice opens a wall the maze does not have, so the mean over the choices has one non-zero term |
| C86 | `PropCost` | counters added to the loops of the model and proved to change nothing; invariants of C21, C24 and C66 at the end of the loops |
| C87 | `PropCost` | as C86; the number of blank squares decreases in each round but the last |
| C88 | `PropDlxCost` | the invariant of the search is proved for the counted function and carried over by erasing the counter; forced rows can be taken in any order (`forced_pick`) |
| C89 | `PropDlxCost` | C88 with the questions of C69 as constraints; a single is the only answer of an open question |
| C90 | `PropPng` | sides of mazes are odd in both modes, nonograms have 150 pixels for rules, a side wraps to 0 exactly where it is an odd multiple of 2^30 |
| C91 | `PropLineCost` | one counter per loop; bounds by induction over the loops, the exact number of passes from the invariant of C39 |
| C92 | `PropMazeWalk` | proved by choosing the draws that follow the walk; the iterations after it only remove further walls |
| C93 | `PropMazeWalk` | the possible columns by four walks through the last row and C92; the impossible ones from C24 and C47: the neighbours of the exit in the last row are on the way to it |
| C94 | `PropDlxAlloc` | simulation under an injective renaming of addresses for every function of the matrix; so C11-C15, C50, C51 and the properties of `solve_sudoku` carry over to all allocators |
| C95 | `PropDlxAlloc` | refuted: `Node::new` does not compare the result of `alloc` with null; every failing allocation is a write through null |
| C96 | `PropMazeWords` | the words accepted for an index form an interval of 2^(32 - size n) words; then as C73, with a factor for the probability that the words suffice |
| C97 | `PropNonogramOutcome` | lines of a pass share no squares, so each sees the squares from before the pass; on a blank line the blocks pushed to the left reach those pushed to the right one square at a time, so a square not known has both values |
| C98 | `PropDlxRelease` | second model `DlxRelease` with wrapping sizes; simulation between the two up to panics of the checked one, for heaps whose headers have no header; along a search of a well-formed matrix every size is a number of live nodes, so comparing sizes reduced modulo 2^64 (2^32) changes nothing. A repeated row makes the unchecked build give wrong answers (`C51_release_refuted`) |
| C99 | `PropMazeFind` | counted copy `MazeFind` of the generator, the same apart from the record (C99_same); invariant: the visited cells form a star around cell 0, so path compression changes nothing; the untested directions of all cells as potential, and the dead end at cell 0 (C49) for the exact total |
| C100 | `PropMazeCapacity` | `MazeCapacity` adds the capacity checks; when the product wraps around, the generator either steps out of the disjoint set (panic) or fills the smaller grid, and then no cell is in row height - 1, so the traversal runs out of cells (panic) |
| C101 | `PropNonogramCapacity` | `NonogramCapacity` adds the capacity checks to `Nonogram`; the sum computed by the parser is the true one modulo 2^64 (2^32), so a clue that is accepted but does not fit needs at least 2^64 (2^32) squares |
| C102 | `PropDlxCapacity` | `DlxCapacity` adds the arithmetic and the capacity check of `resize` to `Dlx` and returns the heap at a panic; it runs in step with `matrix_new`, which succeeds for all constraints |
| C103 | `PropPrintAll` | refuted in part, for 64-bit words: positions of clues are cast to i32, so columns from pixel 2^31 on lose their clues; images and panics are given exactly for all sizes |
| C104 | `PropNonogramRect` | refuted for sides from 2^31 on; `NonogramRect` has the rectangles of imageproc with i32 arithmetic, on smaller images it paints the same pixels as `NonogramPrint` |
| C105 | `PropSerde` | `Serde` models the derived `Serialize` and `Deserialize` on trees of values; `SpecSerde` says which trees stand for a cell by the entries with each key |
| C106 | `PropPipeline` | composition of C20, C25, C28, C32, C35, C38, C41 to C43, C72, C90, C100, C101, C104 and C105; that their hypotheses fit together is what is proved |
| C107 | `PropChain` | the first a rows and b columns of the picture form a grid in which no column (or no row) can be deduced further while four squares remain; line deduction is monotone, so r rounds know at most r rows and r+1 columns. The only closed grid below the picture is the picture |
| C108 | `PropDlxLen` | header sizes are wrong by a constant modulo 2^64 (2^32) throughout, so the run is imitated by one on the right sizes that picks its columns by the wrong ones; the search is proved right for any choice of column; with overflow checks the headers are wrong by a constant integer, and the only other outcome is the panic of a size that would fall below 0, which needs a claim that is too small |
| C109 | `PropDlxHard` | the count of C88 on plain lists bounded by induction over the constraints; in the example every pair doubles the work for what comes after it |
| C110 | `PropDlxUnwind` | `DlxUnwind` drops the matrix before it panics; a run on the right sizes that tries to drop after every removed node succeeds, since the root and the columns still linked represent a matrix throughout, and `drop` only follows links, which do not depend on the sizes |
| C111 | `PropWord` | the relation of C64 with two word sizes: it holds for every operation that depends on the word size and is preserved by sequencing and loops; the parser by its exact description C30; the images by C25, C41, C42 and C104, whose size conditions follow from the smaller memory |
| C112 | `PropDlxCaught` | refuted by computation; dropping: the unwinding model of C110 is the catching model followed by `drop` and the panic (an equation for every loop), nothing but the size check panics, and C110; the table of rows is compared with the one of the matrix to which the row was added without a panic |
| C113 | `PropSerdeBinary` | model `SerdeBinary` of the derived code over an arbitrary format; inverse readers composed |
| C114 | `PropDlxIter` | model `DlxIter`; the loops on the rows read so far are those of `DlxLen`, and the live nodes are the first ones (C102) |
| C115 | `PropDisjointWork` | ranks beside the code: a rank-k root has 2^k elements, so few elements have high ranks; every link is charged at most once per rank of its level (Hopcroft and Ullman) |
| C116 | `PropDlxTame` | Model `DlxUnwind` (a panic drops the matrix) on matrices of `DlxLen`; `SpecDlxTame` has the free sequences of covers and uncovers and the search up to its answer. Proof: every down and right link of a live node goes to a header (to the root) or to a node with a larger rank in the same column (a later header), every up and left link the other way; row links never change. Every store of node.rs preserves this (`DlxTame`), so all loops end within the number of nodes and `drop` frees no node twice. `DlxTameProofs`: new matrices, matrices with rows added, and those left by a caught panic have such links. `DlxTameRelease`: the loops of `DlxRelease` see only the links of a heap, so the invariant carries over to sizes that wrap around |
| C117 | `PropDebugText` | `DebugText` has the derived texts with the escapes of `char` and `str`; which characters stay as they are is a parameter. `SpecDebugText` says which errors share a text. `DebugTextProofs`: an escaped character can be read off the front of a text, so a quoted text ends at its first bare quote; lists of nodes and directions are read off likewise |

The table of exact theorem names is `MANIFEST.json`.

## Trusted base

* The Coq 8.16.1 kernel (including its virtual machine, used for small
  computations) and the std++ library as checked by that kernel.
* `Print Assumptions` prints "Closed under the global context" for every theorem
  in the `Prop*` files: no axiom is used.  (Loading ssreflect, which std++ does,
  declares the constants of `Coq.ssr.ssrunder`; no theorem depends on them.)
* The transcription of the Rust text into the model files, line references in
  the comments.  `RepoTests.v` runs the crate's own unit tests on the model.
  Outside Coq, the lines and filled squares of the reference images in
  `/repo/tests` were compared with the formulas of the model by a script: they
  agree in all pixels.
* The behaviour assumed for code outside the crate: `Vec`, slices, integer
  operations, `str::split`/`parse`/`chars`, `sort_unstable`, `rand`'s
  `choose`, `put_pixel`, `from_pixel`, `draw_filled_rect_mut` (in `Image`
  for images with sides below 2^31; `NonogramRect` has the i32 arithmetic of
  imageproc 0.25).
* The reading of each property as the statement in its `Prop*` and `Spec*` file.

## Modelled code

* `src/util.rs`: `choose_random`, colours.
* `src/structures/disjoint_set.rs`: everything.
* `src/structures/dancing_links/node.rs`, `mod.rs`: everything (allocation,
  links, cover/uncover, iterators, `free_chain`, `new`, `add_solution`, `solve`,
  `Drop`).
* `src/puzzles/maze/mod.rs`, `recursive_backtrack.rs`: everything.
* `src/puzzles/sudoku/mod.rs`: everything.
* `src/puzzles/nonogram/mod.rs`, `right_left.rs`: everything.
* `src/lib.rs`: `image_to_png_bytes` (`Png`), up to the encoder.

## Not modelled

* The PNG encoder of the `image` crate and glyph rasterisation (both are
  arbitrary functions in the model; C90 assumes that the encoder accepts every
  image that is not empty).
* Derived traits other than the `Display` texts of the errors (`ErrorText`), the
  one-line `Debug` texts (`DebugText`) and the serde traits of `MazeNode` and `MazeDirection` (`Serde`, `SerdeBinary`,
  written from knowledge of what serde_derive generates, as its source was not at
  hand; the formats themselves are not modelled, except one in `SpecSerdeBinary`).
* Failing allocation except of nodes (C95); the panic of a `Vec` that would need
  more than isize::MAX bytes except of images (`from_pixel`) and in `create_maze` (C100),
  `solve_nonogram` (C101) and `DancingMatrix::new` (C102); stack size in bytes (C56 bounds the
  number of nested calls
  of the search), running time (termination is proved; C86 to C89, C91, C99 and C115
  count loop iterations and calls).
* Unwinding, except that of the solver (C110, C112) and its constructor (C114).
* Rust's aliasing rules: `UB` covers null and dangling pointers only.  The code
  never makes a reference to a node: all accesses go through raw pointers that
  `alloc` returned.
* The random generator itself: C73-C76 assume independent numbers below a
  multiple of 12, each equally likely, C96 assumes independent 32-bit words, each
  equally likely; all other theorems hold for every sequence of numbers.

## Mutation tests

`seeded/LOG.jsonl` records edits of the model that imitate realistic bugs, with
the theorems that no longer prove.

A theorem is listed under `failed` when its proof, or a lemma or file it needs, no
longer goes through; proofs were not repaired after an edit.  So an entry shows
that the edit was noticed, not that each listed statement became false: some fail
only because a script follows the text of a definition.  Edits known to leave
claims true say so under `claim`; the others were not examined one by one.  Where
`failed` is empty the edit changes no claimed behaviour, as `claim` explains, or
`tightened` names the theorem changed because of it.  An entry saying that only
some files were rebuilt says nothing of theorems elsewhere.  Automatic edits stop
at the first file that fails, so they list one theorem or lemma at most, and about
600 of the last thousand of them were not run.
