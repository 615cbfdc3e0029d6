-Q theories Verif
theories/GoBig.v
theories/GoBigFacts.v
theories/Sched.v
theories/Spec.v
theories/StrFacts.v
theories/AccModel.v
theories/AccFacts.v
theories/AccProofs.v
theories/ForkJoin.v
theories/ParModel.v
theories/ParProofs.v
theories/IterModel.v
theories/IterProofs.v
theories/HashModel.v
theories/HashProofs.v
theories/PropertiesAcc.v
theories/PropertiesHash.v
theories/FSModel.v
theories/FSProofs.v
theories/PropertiesFS.v
theories/ListUpd.v
theories/ExpModel.v
theories/ExpProofs.v
theories/TableModel.v
theories/TableProofs.v
theories/PropertiesExp.v
theories/PokeModel.v
theories/PokeProofs.v
theories/PropertiesPoke.v
theories/SquaresModel.v
theories/SquaresProofs.v
theories/PropertiesSquares.v
theories/RangeModel.v
theories/RangeProofs.v
theories/PropertiesRange.v
theories/PoolModel.v
theories/PoolProofs.v
theories/PropertiesPool.v
theories/CircuitModel.v
theories/CircuitProofs.v
theories/PropertiesCircuit.v
theories/ParIterModel.v
theories/ParIterProofs.v
theories/AccParModel.v
theories/PropertiesParIter.v
theories/SetupModel.v
theories/Fermat.v
theories/SolModel.v
theories/SolProofs.v
theories/PropertiesSetup.v
theories/SecurityProofs.v
theories/PropertiesSecurity.v
theories/ExperimentModel.v
theories/PropertiesExperiments.v
theories/PropertiesSound.v
theories/PropertiesBinding.v
theories/RandModel.v
theories/RandProofs.v
theories/PropertiesRand.v
theories/Orders.v
theories/PropertiesHiding.v
theories/Residues.v
theories/SquaresRace.v
theories/PropertiesLeak.v
theories/KeysModel.v
theories/PropertiesKeys.v
theories/PoolLang.v
theories/PoolLangProofs.v
theories/PoolPrograms.v
theories/PoolWP.v
theories/PoolReadings.v
theories/PropertiesReuse.v
theories/SmallSquares.v
theories/PropertiesSmall.v
theories/DriverModel.v
theories/PropertiesDrivers.v
theories/PropertiesMenu.v
theories/PropertiesLost.v
theories/EvmModel.v
theories/EvmCode.v
theories/EvmSym.v
theories/EvmProofs.v
theories/Keccak.v
theories/PropertiesEvm.v
theories/ChainModel.v
theories/PropertiesChain.v
theories/SuiteModel.v
theories/PropertiesSuite.v
theories/WorkspaceModel.v
theories/PropertiesWorkspace.v
theories/PropertiesEpochs.v
theories/Int4Model.v
theories/PropertiesInt4.v
theories/PropertiesGoroutines.v
theories/PropertiesCleanup.v
theories/CostModel.v
theories/PropertiesCost.v
theories/PropertiesSpan.v
theories/IterCostModel.v
theories/PropertiesIterCost.v
theories/PropertiesParIterCost.v
theories/BenchModel.v
theories/PropertiesBench.v
theories/TableSizeModel.v
theories/PropertiesTableSize.v
theories/PropertiesHelpers.v
theories/LibraryModel.v
theories/PropertiesLibrary.v
theories/OwnModel.v
theories/PropertiesOwn.v
theories/KeepModel.v
theories/PropertiesKeep.v
theories/PropertiesExact.v
theories/PropertiesAnswers.v
theories/PropertiesMask.v
theories/WordModel.v
theories/WordFacts.v
theories/PropertiesWords.v
theories/PropertiesDetect.v
theories/PropertiesWitness.v
theories/RaceModel.v
theories/RaceProofs.v
theories/RaceSim.v
theories/PropertiesRace.v
theories/SliceModel.v
theories/SliceProofs.v
theories/PropertiesSlices.v
theories/InterleaveModel.v
theories/InterleaveProofs.v
theories/InterleaveFuns.v
theories/PropertiesInterleave.v
theories/InterleaveNumModel.v
theories/InterleaveNumFuns.v
theories/PropertiesInterleaveNum.v
theories/ForkModel.v
theories/PropertiesFork.v
theories/TabRaceModel.v
theories/TabRaceProofs.v
theories/PropertiesTabRace.v
theories/PreRaceModel.v
theories/PreRaceProofs.v
theories/PropertiesPreRace.v
theories/PreManyModel.v
theories/PreManyProofs.v
theories/PropertiesPreMany.v
theories/PrintModel.v
theories/PropertiesPrint.v
theories/TabManyModel.v
theories/TabManyProofs.v
theories/PropertiesTabMany.v
