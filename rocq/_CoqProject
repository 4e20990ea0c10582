-Q theories Verif
theories/Base.v
theories/SpecWord.v
theories/WordProofs.v
theories/Util.v
theories/DisjointSet.v
theories/Image.v
theories/Maze.v
theories/MazePrint.v
theories/Dlx.v
theories/Sudoku.v
theories/Nonogram.v
theories/NonogramPrint.v
theories/SpecDisjointSet.v
theories/UtilProofs.v
theories/DisjointSetProofs.v
theories/DisjointTight.v
theories/DisjointSetUnion.v
theories/PropUnion.v
theories/DisjointSetFind.v
theories/PropFind.v
theories/PropBasics.v
theories/SpecSudoku.v
theories/SudokuParseProofs.v
theories/PropSudokuParse.v
theories/SpecNonogramText.v
theories/NonogramParseProofs.v
theories/PropNonogramText.v
theories/ImageProofs.v
theories/SpecMazePrint.v
theories/MazePrintProofs.v
theories/PropMazePrint.v
theories/MazeImage.v
theories/PropMazeImage.v
theories/SpecPrint.v
theories/PrintProofs.v
theories/PropPrint.v
theories/DlxSeg.v
theories/SpecDlx.v
theories/SpecDlxSearch.v
theories/DlxCover.v
theories/DlxColumn.v
theories/DlxSets.v
theories/DlxCost.v
theories/SpecDlxCost.v
theories/DlxKnuth.v
theories/DlxSearch.v
theories/DlxBuild.v
theories/DlxNew.v
theories/DlxEmpty.v
theories/DlxHang.v
theories/DlxAdd.v
theories/DlxReady.v
theories/DlxProofs.v
theories/PropDlx.v
theories/PropDlxSearch.v
theories/PropDlxAny.v
theories/SudokuTable.v
theories/DlxDepth.v
theories/PropDlxDepth.v
theories/SudokuProofs.v
theories/SudokuAny.v
theories/PropSudoku.v
theories/SpecNonogram.v
theories/NonogramStates.v
theories/NonogramLine.v
theories/NonogramDeduce.v
theories/NonogramGrid.v
theories/NonogramProofs.v
theories/PropNonogram.v
theories/SpecMaze.v
theories/MazeTree.v
theories/MazeGen.v
theories/SpecMazeExit.v
theories/MazeBfs.v
theories/MazeProofs.v
theories/PropMaze.v
theories/SpecMazeDfs.v
theories/MazeDfs.v
theories/MazeDfsProofs.v
theories/PropMazeDfs.v
theories/MazeOrder.v
theories/PropMazeExit.v
theories/SpecNonogramDeduce.v
theories/NonogramForced.v
theories/PropNonogramDeduce.v
theories/SpecNonogramMirror.v
theories/NonogramMirror.v
theories/PropNonogramMirror.v
theories/SpecNonogramZero.v
theories/NonogramZero.v
theories/PropNonogramZero.v
theories/RepoTests.v
theories/NonogramImage.v
theories/PropNonogramImage.v
theories/SpecSudokuSym.v
theories/SudokuSym.v
theories/PropSudokuSym.v
theories/SpecMachine.v
theories/MachineProofs.v
theories/ModeProofs.v
theories/PropMode.v
theories/MazeDraws.v
theories/PropMazeDraws.v
theories/SpecLarge.v
theories/LargeProofs.v
theories/PropLarge.v
theories/ErrorText.v
theories/ErrorTextProofs.v
theories/PropErrorText.v
theories/SpecSudokuSearch.v
theories/SudokuSearch.v
theories/PropSudokuSearch.v
theories/SpecNonogramOverlap.v
theories/NonogramOverlap.v
theories/NonogramComplete.v
theories/PropNonogramOverlap.v
theories/SpecSudokuText.v
theories/SudokuTextProofs.v
theories/PropSudokuText.v
theories/SpecMazeRandom.v
theories/MazeRandom.v
theories/MazeRandomSym.v
theories/MazeRandomFirst.v
theories/PropMazeRandom.v
theories/SpecMazeSolution.v
theories/MazeSolution.v
theories/SpecMazeTour.v
theories/MazeTour.v
theories/PropMazeSolution.v
theories/PrintTexts.v
theories/PropPrintTexts.v
theories/NonogramTotals.v
theories/PropNonogramTotals.v
theories/MazeRandomBound.v
theories/PropMazeBound.v
theories/MazeRandomTwo.v
theories/SpecNonogramRigid.v
theories/NonogramRigid.v
theories/PropNonogramRigid.v
theories/SpecNonogramUnique.v
theories/NonogramUnique.v
theories/PropNonogramUnique.v
theories/SpecNonogramSizes.v
theories/NonogramSizes.v
theories/NonogramLengths.v
theories/MazeComb.v
theories/PropNonogramSizes.v
theories/SpecMazeRandomTour.v
theories/MazeRandomTour.v
theories/MazeRandomSizes.v
theories/PropMazeTourRandom.v
theories/MazeCost.v
theories/NonogramCost.v
theories/MazeCostProofs.v
theories/NonogramCostProofs.v
theories/PropCost.v
theories/DlxCostProofs.v
theories/SudokuCostProofs.v
theories/PropDlxCost.v
theories/Png.v
theories/SpecPng.v
theories/PngProofs.v
theories/PropPng.v
theories/NonogramLineCost.v
theories/SpecLineCost.v
theories/NonogramLineCostProofs.v
theories/PropLineCost.v
theories/SpecMazeWalk.v
theories/MazeWalk.v
theories/PropMazeWalk.v
theories/DlxAlloc.v
theories/SpecDlxAlloc.v
theories/DlxAllocProofs.v
theories/PropDlxAlloc.v
theories/MazeWords.v
theories/MazeWordsProofs.v
theories/PropMazeWords.v
theories/SpecNonogramOutcome.v
theories/NonogramOutcome.v
theories/PropNonogramOutcome.v
theories/DlxRelease.v
theories/SpecDlxRelease.v
theories/DlxReleaseSim.v
theories/DlxReleaseEq.v
theories/DlxReleaseProofs.v
theories/PropDlxRelease.v
theories/MazeFind.v
theories/SpecMazeFind.v
theories/MazeFindProofs.v
theories/PropMazeFind.v
theories/MazeCapacity.v
theories/MazeCapacityProofs.v
theories/PropMazeCapacity.v
theories/NonogramCapacity.v
theories/NonogramCapacityProofs.v
theories/PropNonogramCapacity.v
theories/DlxCapacity.v
theories/DlxCapacityProofs.v
theories/PropDlxCapacity.v
theories/SpecPrintAll.v
theories/PrintAllProofs.v
theories/PropPrintAll.v
theories/NonogramRect.v
theories/SpecNonogramRect.v
theories/NonogramRectProofs.v
theories/PropNonogramRect.v
theories/Serde.v
theories/SpecSerde.v
theories/SerdeProofs.v
theories/PropSerde.v
theories/PipelineProofs.v
theories/PropPipeline.v
theories/SpecNonogramChain.v
theories/NonogramChainProofs.v
theories/PropChain.v
theories/DlxLen.v
theories/SpecDlxLen.v
theories/DlxLook.v
theories/DlxLenSim.v
theories/DlxLenSearch.v
theories/DlxLookProofs.v
theories/DlxLenProofs.v
theories/DlxLenCheck.v
theories/DlxLenCheckProofs.v
theories/PropDlxLen.v
theories/SpecDlxHard.v
theories/DlxHardProofs.v
theories/PropDlxHard.v
theories/DlxUnwind.v
theories/SpecDlxUnwind.v
theories/DlxUnwindProofs.v
theories/PropDlxUnwind.v
theories/NarrowProofs.v
theories/NarrowImages.v
theories/PropWord.v
theories/DlxCaught.v
theories/SpecDlxCaught.v
theories/DlxCaughtProofs.v
theories/PropDlxCaught.v
theories/SerdeBinary.v
theories/SpecSerdeBinary.v
theories/SerdeBinaryProofs.v
theories/PropSerdeBinary.v
theories/DlxIter.v
theories/SpecDlxIter.v
theories/DlxIterProofs.v
theories/PropDlxIter.v
theories/SpecDisjointWork.v
theories/DisjointWorkProofs.v
theories/PropDisjointWork.v
theories/SpecDlxTame.v
theories/DlxTame.v
theories/DlxTameProofs.v
theories/DlxTameRelease.v
theories/PropDlxTame.v
theories/DebugText.v
theories/SpecDebugText.v
theories/DebugTextProofs.v
theories/PropDebugText.v
