-Q theories Verif
theories/Model/Analysis.v
theories/Model/BBDrivers.v
theories/Model/BBInfo.v
theories/Model/BasisStatus.v
theories/Model/Bilinear.v
theories/Model/CandidateList.v
theories/Model/Choosers.v
theories/Model/Clean.v
theories/Model/CommandLine.v
theories/Model/Condition.v
theories/Model/Convert.v
theories/Model/Copies.v
theories/Model/CustomRound.v
theories/Model/CutHelper.v
theories/Model/CutRounds.v
theories/Model/Disjunction.v
theories/Model/EventHandler.v
theories/Model/Generate.v
theories/Model/Generator.v
theories/Model/GomoryRounds.v
theories/Model/HandlerCopies.v
theories/Model/HotStart.v
theories/Model/Incumbent.v
theories/Model/LP.v
theories/Model/Library.v
theories/Model/LogRow.v
theories/Model/MainProgram.v
theories/Model/MainRounds.v
theories/Model/NBSpace.v
theories/Model/Names.v
theories/Model/NodeTable.v
theories/Model/ObjectiveCut.v
theories/Model/Ordering.v
theories/Model/Ownership.v
theories/Model/PRCollection.v
theories/Model/PRLPSetup.v
theories/Model/PRLPSolve.v
theories/Model/PackedVec.v
theories/Model/Parallel.v
theories/Model/ParamPrint.v
theories/Model/Parameters.v
theories/Model/PartialTree.v
theories/Model/Preprocess.v
theories/Model/PrintVec.v
theories/Model/ProblemData.v
theories/Model/Report.v
theories/Model/RootCheck.v
theories/Model/ScaleCut.v
theories/Model/Schedule.v
theories/Model/Settings.v
theories/Model/Setup.v
theories/Model/SolverHelper.v
theories/Model/Stats.v
theories/Model/StrongBranch.v
theories/Model/TextUtil.v
theories/Model/TightOnPoint.v
theories/Model/TimeStats.v
theories/Model/TimerUse.v
theories/Model/Tolerance.v
theories/Model/TreeDrawing.v
theories/Model/TreeFiles.v
theories/Prelude.v
theories/Proofs/CandidateListP.v
theories/Proofs/CommandP.v
theories/Proofs/ConditionP.v
theories/Proofs/CopiesP.v
theories/Proofs/CopyStepP.v
theories/Proofs/CutHelperP.v
theories/Proofs/CutValidP.v
theories/Proofs/DisjunctionP.v
theories/Proofs/EventHandlerP.v
theories/Proofs/GenExamples.v
theories/Proofs/GeneratorP.v
theories/Proofs/NBConvertP.v
theories/Proofs/NBPointP.v
theories/Proofs/NBRayP.v
theories/Proofs/NamesP.v
theories/Proofs/OwnershipP.v
theories/Proofs/PRCollectionP.v
theories/Proofs/PRLPSetupP.v
theories/Proofs/PackedVecP.v
theories/Proofs/ParallelP.v
theories/Proofs/ParamP.v
theories/Proofs/ProblemDataP.v
theories/Proofs/ScheduleP.v
theories/Proofs/SolverHelperP.v
theories/Proofs/StatsP.v
theories/Proofs/TextP.v
theories/Proofs/TikzP.v
theories/Proofs/TimerP.v
theories/Proofs/TimerUseP.v
theories/Proofs/ToleranceP.v
theories/Proofs/TreeDrawingP.v
theories/Properties/C01_CutValidity.v
theories/Properties/C02_CutConversion.v
theories/Properties/C03_NBCoordinates.v
theories/Properties/C04_TermRelaxed.v
theories/Properties/C05_Split.v
theories/Properties/C06_RootBounds.v
theories/Properties/C06_tree_coverage.v
theories/Properties/C07_term_boxes.v
theories/Properties/C08_TermSolver.v
theories/Properties/C09_PRLPSetup.v
theories/Properties/C10_CollectionShape.v
theories/Properties/C11_RowCompare.v
theories/Properties/C12_Duplicates.v
theories/Properties/C13_RemoveSmall.v
theories/Properties/C14_CleanCut.v
theories/Properties/C15_Orthogonality.v
theories/Properties/C16_SetRowCut.v
theories/Properties/C17_Bookkeeping.v
theories/Properties/C18_Objectives.v
theories/Properties/C19_CutLimit.v
theories/Properties/C20_FailureLimit.v
theories/Properties/C21_OneCut.v
theories/Properties/C22_TightOnPoint.v
theories/Properties/C23_ExitReason.v
theories/Properties/C24_UserInput.v
theories/Properties/C25_Ownership.v
theories/Properties/C26_DisjObj.v
theories/Properties/C27_SplitSet.v
theories/Properties/C28_tree_size.v
theories/Properties/C29_strategy_digits.v
theories/Properties/C30_Names.v
theories/Properties/C30_TreeNames.v
theories/Properties/C31_Tolerance.v
theories/Properties/C32_Stats.v
theories/Properties/C33_DotProducts.v
theories/Properties/C34_PackedSum.v
theories/Properties/C35_NumberParsing.v
theories/Properties/C36_FileNames.v
theories/Properties/C37_CaseConversion.v
theories/Properties/C38_ReadFiles.v
theories/Properties/C39_Timers.v
theories/Properties/C40_TimerBrackets.v
theories/Properties/C41_SetByName.v
theories/Properties/C42_Domains.v
theories/Properties/C43_OptionBits.v
theories/Properties/C44_BasisStatus.v
theories/Properties/C45_Minimisation.v
theories/Properties/C46_ObjectiveUpdate.v
theories/Properties/C47_CandidateList.v
theories/Properties/C47_FixedOrder.v
theories/Properties/C47_StrongBranching.v
theories/Properties/C48_NodeOrder.v
theories/Properties/C49_SortOrders.v
theories/Properties/C50_CutFormats.v
theories/Properties/C51_Cleaning.v
theories/Properties/C52_BBInfo.v
theories/Properties/C53_Permutation.v
theories/Properties/C54_ApplyCuts.v
theories/Properties/C55_end_to_end.v
theories/Properties/C56_ProblemData.v
theories/Properties/C57_CallerSolver.v
theories/Properties/C58_LoadArrays.v
theories/Properties/C59_PointCandidates.v
theories/Properties/C59_Schedule.v
theories/Properties/C60_Bilinear.v
theories/Properties/C61_Library.v
theories/Properties/C62_MainRounds.v
theories/Properties/C63_CutStatistics.v
theories/Properties/C64_LogRow.v
theories/Properties/C64_Sizes.v
theories/Properties/C65_CommandLine.v
theories/Properties/C66_Resolving.v
theories/Properties/C67_DriverSettings.v
theories/Properties/C68_DriverReports.v
theories/Properties/C69_Preprocess.v
theories/Properties/C70_Program.v
theories/Properties/C71_PartialTree.v
theories/Properties/C72_GomoryRounds.v
theories/Properties/C73_CutRounds.v
theories/Properties/C74_Incumbent.v
theories/Properties/C75_TreeDrawing.v
theories/Properties/C76_ConditionNumber.v
theories/Properties/C77_ConvertCplex.v
theories/Properties/C78_Report.v
theories/Properties/C79_CustomRound.v
theories/Properties/C80_PRLPSolve.v
theories/Properties/C81_NodeTable.v
theories/Properties/C82_PrintParams.v
theories/Properties/C83_Copies.v
theories/Properties/C84_Handlers.v
theories/Properties/C85_Settings.v
theories/Properties/C86_PrintVectors.v
theories/Properties/C87_Choosers.v
theories/Properties/C88_ScaleCut.v
theories/Properties/C89_Tolerances.v
theories/Properties/C90_MainEndToEnd.v
theories/Properties/C91_TreeFiles.v
theories/Properties/C92_ObjectiveCheck.v
theories/Spec/BasisSpec.v
theories/Spec/ChooserSpec.v
theories/Spec/CommandSpec.v
theories/Spec/CondSpec.v
theories/Spec/ConvertSpec.v
theories/Spec/CopySpec.v
theories/Spec/CutSpec.v
theories/Spec/DisjSpec.v
theories/Spec/DrawingSpec.v
theories/Spec/DriverSpec.v
theories/Spec/GenSpec.v
theories/Spec/HandlerSpec.v
theories/Spec/IncumbentSpec.v
theories/Spec/LPSpec.v
theories/Spec/LibrarySpec.v
theories/Spec/LogSpec.v
theories/Spec/MainSpec.v
theories/Spec/NBSpec.v
theories/Spec/NameSpec.v
theories/Spec/OrderSpec.v
theories/Spec/PRLPSpec.v
theories/Spec/ParamSpec.v
theories/Spec/PreSpec.v
theories/Spec/PrintSpec.v
theories/Spec/ProgramSpec.v
theories/Spec/ReportSpec.v
theories/Spec/RoundSpec.v
theories/Spec/RowSpec.v
theories/Spec/ScaleSpec.v
theories/Spec/ScheduleSpec.v
theories/Spec/SearchSpec.v
theories/Spec/SettingsSpec.v
theories/Spec/SolveSpec.v
theories/Spec/SolverSpec.v
theories/Spec/StatsSpec.v
theories/Spec/TableSpec.v
theories/Spec/TermSpec.v
theories/Spec/TextSpec.v
theories/Spec/TimeSpec.v
theories/Spec/TimerSpec.v
theories/Spec/TreeSpec.v
theories/Spec/VecSpec.v
