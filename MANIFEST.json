{
 "claims": [
  {
   "property": "C01",
   "status": "proved",
   "theorems": [
    "C01_parse_accepts"
   ],
   "note": ""
  },
  {
   "property": "C02",
   "status": "proved",
   "theorems": [
    "C02_parse_errors"
   ],
   "note": ""
  },
  {
   "property": "C03",
   "status": "proved",
   "theorems": [
    "C03_roundtrip_grid",
    "C03_roundtrip_text"
   ],
   "note": ""
  },
  {
   "property": "C04",
   "status": "proved",
   "theorems": [
    "C04_sound"
   ],
   "note": ""
  },
  {
   "property": "C05",
   "status": "proved",
   "theorems": [
    "C05_complete"
   ],
   "note": ""
  },
  {
   "property": "C06",
   "status": "proved",
   "theorems": [
    "C06_no_solution"
   ],
   "note": ""
  },
  {
   "property": "C07",
   "status": "partial",
   "theorems": [
    "C07_refuted",
    "C07_no_clash_partial",
    "C07_box_clash_partial",
    "C07_use_after_free_partial",
    "C07_cases_partial"
   ],
   "note": "The property is false: two equal clues of one row or column in different boxes make the solver use freed nodes. The partial theorems give the outcome of every puzzle."
  },
  {
   "property": "C08",
   "status": "partial",
   "theorems": [
    "C08_size",
    "C08_refuted",
    "C08_ignored_partial",
    "C08_entries_partial",
    "C08_no_collision_partial",
    "C08_collision_partial",
    "C08_cases_partial"
   ],
   "note": "The size check is proved; the second half is false: an entry above 9 is taken as a digit of another cell, or dropped when no such row exists. C08_entries_partial C08_no_collision_partial C08_collision_partial C08_cases_partial gives the outcome for arbitrary entries."
  },
  {
   "property": "C09",
   "status": "proved",
   "theorems": [
    "C09_unique",
    "C09_fixpoint",
    "C09_idempotent"
   ],
   "note": ""
  },
  {
   "property": "C10",
   "status": "proved",
   "theorems": [
    "C10_table"
   ],
   "note": ""
  },
  {
   "property": "C11",
   "status": "proved",
   "theorems": [
    "C11_solve"
   ],
   "note": ""
  },
  {
   "property": "C12",
   "status": "proved",
   "theorems": [
    "C12_memory"
   ],
   "note": ""
  },
  {
   "property": "C13",
   "status": "proved",
   "theorems": [
    "C13_cover_uncover",
    "C13_failed_search"
   ],
   "note": ""
  },
  {
   "property": "C14",
   "status": "proved",
   "theorems": [
    "C14_add_solution"
   ],
   "note": ""
  },
  {
   "property": "C15",
   "status": "partial",
   "theorems": [
    "C15_refuted",
    "C15_index_error_partial",
    "C15_invalid_row_partial",
    "C15_use_after_free_partial"
   ],
   "note": "The property is false: a rejected row is pushed onto the partial solution, and a conflicting row whose pointer was not cleared is a use after free. The partial theorems give the exact outcome in every case."
  },
  {
   "property": "C16",
   "status": "proved",
   "theorems": [
    "C16_partition"
   ],
   "note": ""
  },
  {
   "property": "C17",
   "status": "proved",
   "theorems": [
    "C17_queries"
   ],
   "note": ""
  },
  {
   "property": "C18",
   "status": "proved",
   "theorems": [
    "C18_depth",
    "C18_counts",
    "C18_reached"
   ],
   "note": ""
  },
  {
   "property": "C19",
   "status": "proved",
   "theorems": [
    "C19_choose_random",
    "C19_every_element"
   ],
   "note": ""
  },
  {
   "property": "C20",
   "status": "proved",
   "theorems": [
    "C20_total",
    "C20_zero"
   ],
   "note": "For grids that fit into memory (two bytes per cell)."
  },
  {
   "property": "C21",
   "status": "proved",
   "theorems": [
    "C21_perfect",
    "C21_passages"
   ],
   "note": ""
  },
  {
   "property": "C22",
   "status": "proved",
   "theorems": [
    "C22_boundary"
   ],
   "note": ""
  },
  {
   "property": "C23",
   "status": "partial",
   "theorems": [
    "C23_refuted",
    "C23_wide_partial",
    "C23_width_one_partial"
   ],
   "note": "False for width 1: the cell below has index +1, which the code reads as a step to the right, so the solution is a list of Right. Proved for width >= 2; for width 1 the returned list is described exactly."
  },
  {
   "property": "C24",
   "status": "proved",
   "theorems": [
    "C24_shortest_farthest"
   ],
   "note": ""
  },
  {
   "property": "C25",
   "status": "proved",
   "theorems": [
    "C25_print_maze_exact",
    "C25_colours"
   ],
   "note": ""
  },
  {
   "property": "C26",
   "status": "proved",
   "theorems": [
    "C26_print_maze_total",
    "C26_wraps",
    "C26_cells_wrap"
   ],
   "note": "C26_wraps: without overflow checks an unprintable size can give an image of the wrong size."
  },
  {
   "property": "C27",
   "status": "proved",
   "theorems": [
    "C27_print_solution",
    "C27_inside",
    "C27_sharp",
    "C27_red"
   ],
   "note": "Images with sides below 2^32-10; C27_sharp shows that the bound cannot be raised."
  },
  {
   "property": "C28",
   "status": "partial",
   "theorems": [
    "C28_refuted",
    "C28_never"
   ],
   "note": "False: the last check of print_maze_solution rejects every solution that ends in the last row. Proved: for every created maze whose image has sides below 2^32-10, the result is InvalidSolution."
  },
  {
   "property": "C29",
   "status": "partial",
   "theorems": [
    "C29_refuted"
   ],
   "note": "The property is false: a path staying inside the image is rejected by the final height check; C29_refuted gives the witness and C27_print_solution the exact condition."
  },
  {
   "property": "C30",
   "status": "proved",
   "theorems": [
    "C30_accepts"
   ],
   "note": ""
  },
  {
   "property": "C31",
   "status": "proved",
   "theorems": [
    "C31_errors"
   ],
   "note": ""
  },
  {
   "property": "C32",
   "status": "partial",
   "theorems": [
    "C32_refuted",
    "C32_panics_partial",
    "C32_release_partial",
    "C32_fits_partial"
   ],
   "note": "The property is false: the sum of a rule can overflow usize. The partial theorems say exactly when it panics and that without overflow every rule fits."
  },
  {
   "property": "C33",
   "status": "proved",
   "theorems": [
    "C33_roundtrip"
   ],
   "note": ""
  },
  {
   "property": "C34",
   "status": "proved",
   "theorems": [
    "C34_sound",
    "C34_reading",
    "C34_reading_zeros"
   ],
   "note": "Arbitrary clues, zeros read as blocks without squares; number of cells representable in usize. C34_reading relates the reading to the usual one."
  },
  {
   "property": "C35",
   "status": "proved",
   "theorems": [
    "C35_no_solution",
    "C35_only_error"
   ],
   "note": "Arbitrary clues, zeros read as blocks without squares; number of cells representable in usize."
  },
  {
   "property": "C36",
   "status": "partial",
   "theorems": [
    "C36_refuted",
    "C36_determined_partial",
    "C36_size_partial",
    "C36_undecided_partial",
    "C36_sizes_partial"
   ],
   "note": "False: recursive_backtrack is empty, so undetermined cells are returned as false; the 2x2 puzzle with all clues 1 gives an all-false grid. Proved: the result has the right size, and satisfies the clues iff no square is left blank. It holds for puzzles with one row or one column and for no other size (C36_sizes_partial)."
  },
  {
   "property": "C37",
   "status": "proved",
   "theorems": [
    "C37_unique",
    "C37_determined"
   ],
   "note": "Arbitrary clues, zeros read as blocks without squares; number of cells representable in usize."
  },
  {
   "property": "C38",
   "status": "partial",
   "theorems": [
    "C38_refuted",
    "C38_total_partial",
    "C38_panic_cases_partial",
    "C38_panic_iff_partial"
   ],
   "note": "False: the rule 0, accepted by the parser, makes the solver panic, and so do two columns without rows. Proved: it can only panic if a clue begins or ends with 0 or there are at least two columns and no row; a puzzle that has a solution panics exactly in these cases."
  },
  {
   "property": "C39",
   "status": "proved",
   "theorems": [
    "C39_leftmost",
    "C39_zero"
   ],
   "note": "Exact for every rule not beginning with 0; panics otherwise."
  },
  {
   "property": "C40",
   "status": "proved",
   "theorems": [
    "C40_transpose"
   ],
   "note": "No clue begins or ends with 0; at least one row and column; number of cells representable in usize."
  },
  {
   "property": "C41",
   "status": "proved",
   "theorems": [
    "C41_dimensions",
    "C41_print_nonogram",
    "C41_gray"
   ],
   "note": ""
  },
  {
   "property": "C42",
   "status": "proved",
   "theorems": [
    "C42_dimensions",
    "C42_print_solution"
   ],
   "note": ""
  },
  {
   "property": "C43",
   "status": "proved",
   "theorems": [
    "C43_print_sudoku"
   ],
   "note": ""
  },
  {
   "property": "C44",
   "status": "proved",
   "theorems": [
    "C44_line_exact"
   ],
   "note": "The clue does not begin or end with 0."
  },
  {
   "property": "C45",
   "status": "proved",
   "theorems": [
    "C45_deduce",
    "C45_solve",
    "C45_idempotent",
    "C45_solution_closed"
   ],
   "note": "No clue begins or ends with 0; number of cells representable in usize; at least one row or at most one column."
  },
  {
   "property": "C46",
   "status": "partial",
   "theorems": [
    "C46_refuted",
    "C46_blank_partial",
    "C46_single_partial",
    "C46_lengths_partial"
   ],
   "note": "False for filled and for empty squares: a square can have a constant value but belong to different blocks or gaps. C44_line_exact says exactly which squares are decided. True on lines without decided squares, and for filled squares when the clue is a single block. True on all lines shorter than 8 for filled and shorter than 5 for empty squares, and for no longer ones (C46_lengths_partial). C97_blank extends the statement about lines without decided squares to clues with zeros inside."
  },
  {
   "property": "C47",
   "status": "proved",
   "theorems": [
    "C47_support",
    "C47_maze",
    "C47_every"
   ],
   "note": "For grids that fit into memory (two bytes per cell)."
  },
  {
   "property": "C48",
   "status": "partial",
   "theorems": [
    "C48_refuted",
    "C48_sizes_partial"
   ],
   "note": "False: the generated mazes are the depth-first trees rooted at cell 0 (C47_support), so a maze whose first cell has two passages never appears. It holds for one row or one column and for no other size (C48_sizes_partial)."
  },
  {
   "property": "C49",
   "status": "proved",
   "theorems": [
    "C49_dead_end"
   ],
   "note": "For grids that fit into memory (two bytes per cell)."
  },
  {
   "property": "C50",
   "status": "proved",
   "theorems": [
    "C50_search_order"
   ],
   "note": ""
  },
  {
   "property": "C51",
   "status": "partial",
   "theorems": [
    "C51_refuted",
    "C51_alone_refuted",
    "C51_endless_refuted",
    "C51_release_refuted",
    "C51_new_drop",
    "C51_empty_partial"
   ],
   "note": "False when a constraint names a row twice: [[0,0],[0]] makes solve use a freed node, [[0,0]] gives no solution and leaks. Proved for all constraints: new succeeds and drop frees everything; with an empty constraint solve reports no solution, rightly, and leaks nothing (C51_empty_partial). Without repetitions C11 and C12 apply. C51_alone_refuted: a single constraint suffices to use a freed node, to panic on a negative size, or to find the cover and leak. C51_endless_refuted: with [[1,0],[1,3],[0,5,5,3],[2,3]] the search recurses for ever. C51_release_refuted: without overflow checks (DlxRelease) the answer can be rows that are no cover although none exists, or no solution although one does."
  },
  {
   "property": "C52",
   "status": "proved",
   "theorems": [
    "C52_exit",
    "C52_determined"
   ],
   "note": ""
  },
  {
   "property": "C53",
   "status": "partial",
   "theorems": [
    "C53_refuted",
    "C53_never",
    "C53_union"
   ],
   "note": "False: when two sets are joined, union returns the representative of the smaller one (of the second, if equally large), which represents nothing afterwards. C53_union gives the result in every case."
  },
  {
   "property": "C54",
   "status": "proved",
   "theorems": [
    "C54_mirror",
    "C54_flip"
   ],
   "note": "No clue begins or ends with 0; number of cells representable in usize; at least one row or at most one column."
  },
  {
   "property": "C55",
   "status": "partial",
   "theorems": [
    "C55_refuted",
    "C55_inner_refuted",
    "C55_stricter_partial",
    "C55_zero_partial",
    "C55_panic_partial",
    "C55_text_partial"
   ],
   "note": "False: a clue beginning or ending with 0 panics or gives NoSolution, and panics if the puzzle is solvable with zeros left out; a zero inside a clue widens the gap. So no puzzle with an empty line can be given as text and be solved. Solutions in the sense of the solver are solutions with the zeros left out."
  },
  {
   "property": "C56",
   "status": "proved",
   "theorems": [
    "C56_depth",
    "C56_sudoku"
   ],
   "note": "Depth is measured by the fuel of the recursive function: with that many nested calls it gives the same answer as with any larger number."
  },
  {
   "property": "C57",
   "status": "proved",
   "theorems": [
    "C57_injective"
   ],
   "note": "At most 2^32 cells and an image whose size fits into u32 and memory."
  },
  {
   "property": "C58",
   "status": "proved",
   "theorems": [
    "C58_drawing"
   ],
   "note": "Sizes as in C25 and C27. The solutions of create_maze itself are not accepted by print_maze_solution (C28)."
  },
  {
   "property": "C59",
   "status": "partial",
   "theorems": [
    "C59_refuted",
    "C59_middle_partial"
   ],
   "note": "False: the squares paint over the inner pixels of the thick lines. The middle of every line stays grey."
  },
  {
   "property": "C60",
   "status": "partial",
   "theorems": [
    "C60_refuted",
    "C60_small_partial"
   ],
   "note": "False for every height from 11: a clue of ones is too long. Holds up to height 10 without zeros in clues, up to height 4 with zeros. Positions are those of the texts that C41_print_nonogram proves to be drawn."
  },
  {
   "property": "C61",
   "status": "proved",
   "theorems": [
    "C61_injective"
   ],
   "note": ""
  },
  {
   "property": "C62",
   "status": "proved",
   "theorems": [
    "C62_pipeline"
   ],
   "note": "At most 2^32 squares, sizes for which no arithmetic overflows."
  },
  {
   "property": "C63",
   "status": "proved",
   "theorems": [
    "C63_symmetric",
    "C63_flip",
    "C63_permute"
   ],
   "note": "For unsolvable puzzles the answer may change between NoSolution and undefined behaviour (C07)."
  },
  {
   "property": "C64",
   "status": "proved",
   "theorems": [
    "C64_create_maze",
    "C64_print_maze",
    "C64_print_maze_solution",
    "C64_parse_nonogram_rules",
    "C64_solve_nonogram",
    "C64_print_nonogram",
    "C64_print_nonogram_solution",
    "C64_arithmetic",
    "C64_index",
    "C64_casts"
   ],
   "note": "C64_arithmetic, C64_index and C64_casts say what the operations compute when the result is out of range."
  },
  {
   "property": "C65",
   "status": "proved",
   "theorems": [
    "C65_find",
    "C65_flat"
   ],
   "note": ""
  },
  {
   "property": "C66",
   "status": "proved",
   "theorems": [
    "C66_draws"
   ],
   "note": "For grids that fit into memory (two bytes per cell)."
  },
  {
   "property": "C67",
   "status": "partial",
   "theorems": [
    "C67_maze_refuted",
    "C67_nonogram_refuted",
    "C67_maze_partial",
    "C67_nonogram_partial"
   ],
   "note": "False beyond 2^32 cells: cell numbers are cut to 32 bits, so cell 2^32 is drawn over cell 0. The images of all sizes are given exactly; up to 2^32 cells C25 and C42 apply."
  },
  {
   "property": "C68",
   "status": "proved",
   "theorems": [
    "C68_injective"
   ],
   "note": ""
  },
  {
   "property": "C69",
   "status": "proved",
   "theorems": [
    "C69_search"
   ],
   "note": ""
  },
  {
   "property": "C70",
   "status": "proved",
   "theorems": [
    "C70_fillings",
    "C70_idempotent",
    "C70_monotone"
   ],
   "note": ""
  },
  {
   "property": "C71",
   "status": "proved",
   "theorems": [
    "C71_overlap",
    "C71_too_long"
   ],
   "note": ""
  },
  {
   "property": "C72",
   "status": "proved",
   "theorems": [
    "C72_solved",
    "C72_sound"
   ],
   "note": ""
  },
  {
   "property": "C73",
   "status": "proved",
   "theorems": [
    "C73_distribution",
    "C73_total"
   ],
   "note": ""
  },
  {
   "property": "C74",
   "status": "proved",
   "theorems": [
    "C74_exchange"
   ],
   "note": ""
  },
  {
   "property": "C75",
   "status": "partial",
   "theorems": [
    "C75_refuted",
    "C75_thin_partial",
    "C75_sizes_partial"
   ],
   "note": "False: two 3 x 3 mazes have the probabilities 1/16 and 1/12. Proved for at most two rows or at most two columns, with the probability. It holds for no other size (C75_sizes_partial). C73 gives all probabilities."
  },
  {
   "property": "C76",
   "status": "proved",
   "theorems": [
    "C76_first"
   ],
   "note": ""
  },
  {
   "property": "C77",
   "status": "proved",
   "theorems": [
    "C77_length",
    "C77_shortest",
    "C77_longest",
    "C77_moves",
    "C77_no_return"
   ],
   "note": "Length bounds, that they are attained, and what the steps add up to."
  },
  {
   "property": "C78",
   "status": "proved",
   "theorems": [
    "C78_tour"
   ],
   "note": "For every tour, every size and both build modes."
  },
  {
   "property": "C79",
   "status": "proved",
   "theorems": [
    "C79_sudoku",
    "C79_nonogram"
   ],
   "note": "The text renderer is universally quantified."
  },
  {
   "property": "C80",
   "status": "partial",
   "theorems": [
    "C80_refuted",
    "C80_totals",
    "C80_accepted",
    "C80_thin_partial",
    "C80_sizes_partial"
   ],
   "note": "False: a w x h grid with w, h >= 2 different and clue 1 for every line has no solution but is answered with the empty grid. Proved for puzzles with a single row or column and for 2 x 2, and false for every other size (C80_sizes_partial); C45_solve says exactly when NoSolution is returned."
  },
  {
   "property": "C81",
   "status": "proved",
   "theorems": [
    "C81_positive",
    "C81_bound"
   ],
   "note": "Random numbers uniform below a multiple of 12, as in C73."
  },
  {
   "property": "C82",
   "status": "proved",
   "theorems": [
    "C82_decided",
    "C82_one_way"
   ],
   "note": "A general puzzle may be left unsolved (C36, C80)."
  },
  {
   "property": "C83",
   "status": "proved",
   "theorems": [
    "C83_sizes",
    "C83_missed"
   ],
   "note": "The missed puzzles have two lines [2] and [1; 1] across four lines [1]."
  },
  {
   "property": "C84",
   "status": "proved",
   "theorems": [
    "C84_count"
   ],
   "note": ""
  },
  {
   "property": "C85",
   "status": "proved",
   "theorems": [
    "C85_tour"
   ],
   "note": "Random numbers uniform below a multiple of 12, as in C73."
  },
  {
   "property": "C86",
   "status": "proved",
   "theorems": [
    "C86_same",
    "C86_cost",
    "C86_total"
   ],
   "note": "Counted copies of the loops; C86_same proves that erasing the counters gives the model."
  },
  {
   "property": "C87",
   "status": "proved",
   "theorems": [
    "C87_same",
    "C87_cost"
   ],
   "note": "Counted copies of the loops; C87_same proves that erasing the counters gives the model."
  },
  {
   "property": "C88",
   "status": "proved",
   "theorems": [
    "C88_same",
    "C88_calls",
    "C88_forced",
    "C88_nodes"
   ],
   "note": "Counted copy of solve_helper; C88_same proves that erasing the counter gives the model."
  },
  {
   "property": "C89",
   "status": "proved",
   "theorems": [
    "C89_same",
    "C89_grids",
    "C89_singles",
    "C89_rejected"
   ],
   "note": "Single steps are forced rows of C88."
  },
  {
   "property": "C90",
   "status": "partial",
   "theorems": [
    "C90_maze",
    "C90_maze_solution",
    "C90_nonogram",
    "C90_nonogram_solution",
    "C90_nonogram_refused",
    "C90_nonogram_solution_refused",
    "C90_sudoku",
    "C90_release_refuted"
   ],
   "note": "Without overflow checks a nonogram with 2^30 rows and columns is printed as an image of size 0 (C90_release_refuted). Which sides do so is exact: the odd multiples of 2^30 (C90_nonogram and C90_nonogram_refused, the same for solutions). The encoder is a parameter."
  },
  {
   "property": "C91",
   "status": "proved",
   "theorems": [
    "C91_same",
    "C91_same_line",
    "C91_passes",
    "C91_line",
    "C91_total",
    "C91_fits",
    "C91_least"
   ],
   "note": "Counted copies of find_left, right_left and the loops around them; erasing the counters gives the model. Copies of paths are not counted, each is as long as the part of the line already read."
  },
  {
   "property": "C92",
   "status": "proved",
   "theorems": [
    "C92_every",
    "C92_only"
   ],
   "note": ""
  },
  {
   "property": "C93",
   "status": "proved",
   "theorems": [
    "C93_columns"
   ],
   "note": ""
  },
  {
   "property": "C94",
   "status": "proved",
   "theorems": [
    "C94_matrix",
    "C94_sudoku"
   ],
   "note": ""
  },
  {
   "property": "C95",
   "status": "partial",
   "theorems": [
    "C95_alloc_refuted",
    "C95_new_partial",
    "C95_sudoku_partial"
   ],
   "note": "False: alloc is not compared with null. C95_new_partial: every failing allocation leads to a write through null, in DancingMatrix::new and in solve_sudoku."
  },
  {
   "property": "C96",
   "status": "proved",
   "theorems": [
    "C96_index",
    "C96_maze",
    "C96_enough",
    "C96_same",
    "C96_append"
   ],
   "note": "The sampling loop of rand 0.8.5 is transcribed from its published source, which is not part of /repo."
  },
  {
   "property": "C97",
   "status": "proved",
   "theorems": [
    "C97_columns",
    "C97_rows",
    "C97_no_rows",
    "C97_blank",
    "C97_overflow"
   ],
   "note": ""
  },
  {
   "property": "C98",
   "status": "proved",
   "theorems": [
    "C98_same",
    "C98_abandoned",
    "C98_answer",
    "C98_sudoku"
   ],
   "note": ""
  },
  {
   "property": "C99",
   "status": "proved",
   "theorems": [
    "C99_same",
    "C99_calls"
   ],
   "note": ""
  },
  {
   "property": "C100",
   "status": "proved",
   "theorems": [
    "C100_sizes",
    "C100_returned"
   ],
   "note": ""
  },
  {
   "property": "C101",
   "status": "proved",
   "theorems": [
    "C101_long",
    "C101_only",
    "C101_same",
    "C101_answer",
    "C101_text"
   ],
   "note": ""
  },
  {
   "property": "C102",
   "status": "proved",
   "theorems": [
    "C102_same",
    "C102_panics",
    "C102_only"
   ],
   "note": ""
  },
  {
   "property": "C103",
   "status": "partial",
   "theorems": [
    "C103_image",
    "C103_panics",
    "C103_hidden",
    "C103_clues_refuted"
   ],
   "note": "The first half of the property is false: C103_clues_refuted gives two different puzzles with 40000000 columns and the same image. C103_image gives the image of every puzzle exactly, and C103_panics the puzzles that have none."
  },
  {
   "property": "C104",
   "status": "partial",
   "theorems": [
    "C104_arith",
    "C104_same",
    "C104_large",
    "C104_refuted"
   ],
   "note": "False for sides of 2^31 pixels or more: C104_refuted gives a puzzle with 40000000 columns whose solution leaves the image unchanged. C104_large gives the outcome for all such sizes, C104_same reduces all others to C42 and C67. draw_filled_rect_mut is modelled after imageproc 0.25."
  },
  {
   "property": "C105",
   "status": "proved",
   "theorems": [
    "C105_round",
    "C105_node",
    "C105_errors",
    "C105_direction",
    "C105_maze",
    "C105_written"
   ],
   "note": "The code generated by serde_derive 1.0 is modelled from knowledge of its behaviour, as its source was not at hand to check against; the format itself (for example serde_json) is outside the model. C105_errors gives the error for every rejected map; the errors for other rejected values are only shown by examples."
  },
  {
   "property": "C106",
   "status": "proved",
   "theorems": [
    "C106_nonogram",
    "C106_maze",
    "C106_sudoku"
   ],
   "note": "Uses the models with capacity checks (create_checked, solve_checked) and with the rectangles of imageproc (print_solution32). The PNG encoder and the text renderer are parameters. The solution of a maze is never drawn (C28), which C106_maze states."
  },
  {
   "property": "C107",
   "status": "proved",
   "theorems": [
    "C107_chain",
    "C107_unbounded"
   ],
   "note": "Lower bound beside the upper bound of C87. Rounds are counted by the model with counters (C87_same). The exact number is n in all computed cases; n-2 is what is proved."
  },
  {
   "property": "C108",
   "status": "proved",
   "theorems": [
    "C108_answer",
    "C108_same",
    "C108_abandoned",
    "C108_right",
    "C108_checked_panics",
    "C108_checked_answer",
    "C108_checked_same",
    "C108_checked_abandoned"
   ],
   "note": "Both kinds of builds. With overflow checks a panic is possible (witness C108_checked_panics), and C108_checked_* show that it is the only other outcome and needs an iterator that claims less than it yields."
  },
  {
   "property": "C109",
   "status": "proved",
   "theorems": [
    "C109_bound",
    "C109_hard",
    "C109_sharp"
   ],
   "note": "The counted functions are those of C88 (C88_same)."
  },
  {
   "property": "C110",
   "status": "proved",
   "theorems": [
    "C110_answer",
    "C110_same",
    "C110_abandoned",
    "C110_unchanged"
   ],
   "note": "The matrix is assumed not to be used again after a panic of add_solution was caught. Covered nodes are leaked by such a panic."
  },
  {
   "property": "C111",
   "status": "proved",
   "theorems": [
    "C111_create_maze",
    "C111_print_maze",
    "C111_print_maze_solution",
    "C111_solve_nonogram",
    "C111_print_nonogram",
    "C111_print_nonogram_solution",
    "C111_new",
    "C111_parse",
    "C111_maze_cells",
    "C111_clues",
    "C111_squares"
   ],
   "note": "C111_clues assumes clues that fit the height, as the parser ensures. That small puzzles do not panic with 32-bit words is C106."
  },
  {
   "property": "C112",
   "status": "partial",
   "theorems": [
    "C112_reuse_refuted",
    "C112_answer_refuted",
    "C112_dropped_partial",
    "C112_same_partial",
    "C112_left_partial",
    "C112_unwound_partial"
   ],
   "note": "False: with constraints [0,1], [0,1], [2] of claimed lengths 0, 2, 1, adding row 0 panics, adding row 2 then succeeds and solve uses freed nodes (C112_reuse_refuted); with [0,1], [0] of lengths 0, 1, solving right after the caught panic returns rows 0 and 1, which are no cover (C112_answer_refuted). What is true: after the first panic the matrix can be dropped without undefined behaviour, for all inputs; the row that panicked counts as chosen, and exactly those rows are turned down afterwards that would be had there been no panic (the partial theorems). Solving right after the first panic, with no further row added, misuses no node before the search has found an answer (C116_caught). Not proved: whether freeing that answer can."
  },
  {
   "property": "C113",
   "status": "proved",
   "theorems": [
    "C113_round",
    "C113_prefix",
    "C113_only",
    "C113_variants",
    "C113_bytes",
    "C113_format"
   ],
   "note": "The format is any record of readers and writers; C113_format gives an instance. What serde_derive generates is written from knowledge of serde."
  },
  {
   "property": "C114",
   "status": "proved",
   "theorems": [
    "C114_calm",
    "C114_leaks",
    "C114_all"
   ],
   "note": "A panic is a missing value of len or next; the heap at that moment is what leaks."
  },
  {
   "property": "C115",
   "status": "proved",
   "theorems": [
    "C115_same",
    "C115_work",
    "C115_word"
   ],
   "note": "The calls are counted in the model of C99 (MazeFind); C115_same says that counting changes nothing."
  },
  {
   "property": "C116",
   "status": "proved",
   "theorems": [
    "C116_walk",
    "C116_search",
    "C116_caught",
    "C116_release_walk",
    "C116_release_search"
   ],
   "note": "Closed under the global context. C116_caught is for builds with overflow checks, where sizes below zero panic. look_for and look_for_release (SpecDlxTame) are the search without the freeing of an answer; that it can hang, and that the freeing afterwards can misuse nodes, is C51."
  },
  {
   "property": "C117",
   "status": "proved",
   "theorems": [
    "C117_errors",
    "C117_types",
    "C117_printable",
    "C117_maze"
   ],
   "note": "Closed under the global context. What derive(Debug) and char::escape_debug do is written from knowledge of the standard library; which characters are printable is an arbitrary function. The multi-line form {:#?} is not modelled."
  }
 ]
}
