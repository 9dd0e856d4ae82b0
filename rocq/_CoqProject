-Q theories Verif
theories/Num.v
theories/NumP.v
theories/ListX.v
theories/ListP.v
theories/Frames.v
theories/MatM.v
theories/NetM.v
theories/StackM.v
theories/MeshM.v
theories/ModelM.v
theories/SolverM.v
theories/InterpM.v
theories/RenderM.v
theories/SettingsM.v
theories/AliasM.v
theories/Spec.v
theories/CheckP.v
theories/GroupP.v
theories/MeshCheckP.v
theories/MatP.v
theories/SpecDraw.v
theories/DrawP.v
theories/PropsMat.v
theories/PropsNet.v
theories/PropsMesh.v
theories/SpecNet.v
theories/NetP.v
theories/NetGeoP.v
theories/NetZP.v
theories/SpecStack.v
theories/StackP.v
theories/StackForceP.v
theories/StackNewP.v
theories/MetaP.v
theories/PropsStack.v
theories/SpecMesh.v
theories/MeshP.v
theories/SpecModel.v
theories/StiffP.v
theories/StiffLimP.v
theories/StiffLenP.v
theories/ConstraintP.v
theories/PropsModel.v
theories/SpecSolver.v
theories/SolverP.v
theories/SolverRunP.v
theories/SolverSysP.v
theories/SolverApiP.v
theories/SolverFinP.v
theories/GaussX.v
theories/PropsSolver.v
theories/SpecInterp.v
theories/InterpP.v
theories/ResultM.v
theories/ResultP.v
theories/PropsInterp.v
theories/SpecRender.v
theories/RenderP.v
theories/PropsRender.v
theories/VtkM.v
theories/SpecVtk.v
theories/VtkP.v
theories/PropsVtk.v
theories/SpecSettings.v
theories/SettingsP.v
theories/PropsSettings.v
theories/SpecAlias.v
theories/AliasP.v
theories/PropsAlias.v
theories/SpecPerm.v
theories/SpecMeta.v
theories/PermP.v
theories/GaussP.v
theories/PropsPerm.v
theories/PlotM.v
theories/SpecPlot.v
theories/PlotP.v
theories/PropsPlot.v
theories/MainM.v
theories/SpecMain.v
theories/SpecEnergy.v
theories/MainP.v
theories/EnergyP.v
theories/PropsMain.v
theories/PropsEnergy.v
theories/PictureM.v
theories/NotebookM.v
theories/ScriptsM.v
theories/SpecScripts.v
theories/ScriptsP.v
theories/PropsScripts.v
theories/SpecPicture.v
theories/SpecNotebook.v
theories/PictureP.v
theories/NotebookP.v
theories/PropsPicture.v
theories/PropsNotebook.v
theories/PropsMeta.v
theories/SpecScale.v
theories/ScaleP.v
theories/PropsScale.v
theories/SpecProgress.v
theories/ProgressP.v
theories/HeldP.v
theories/ProgressFinP.v
theories/ProgressMainP.v
theories/PropsProgress.v
theories/SpecStiffen.v
theories/StiffenP.v
theories/StiffenResP.v
theories/StiffenDirP.v
theories/PropsStiffen.v
theories/SpecPack.v
theories/PackP.v
theories/PackEndP.v
theories/PropsPack.v
theories/ErrorM.v
theories/SpecTargets.v
theories/TargetsP.v
theories/PropsTargets.v
theories/SpecTorus.v
theories/TorusP.v
theories/SpecPiles.v
theories/PilesP.v
theories/PropsPiles.v
theories/PropsTorus.v
theories/TestsM.v
theories/SpecTests.v
theories/TestsP.v
theories/PropsTests.v
theories/SpecMove.v
theories/MoveP.v
theories/UnitsP.v
theories/MovePackP.v
theories/PropsMove.v
theories/DefaultsM.v
theories/SpecDefaults.v
theories/DefaultsP.v
theories/PropsDefaults.v
theories/ClassesM.v
theories/SpecClasses.v
theories/ClassesP.v
theories/PropsClasses.v
theories/DtypeM.v
theories/DtypeP.v
theories/PropsDtype.v
theories/SpecRename.v
theories/RenameMatP.v
theories/RenameRunP.v
theories/RenameDataP.v
theories/RenameP.v
theories/RenameX.v
theories/PropsRename.v
theories/SpecOrder.v
theories/OrderP.v
theories/OrderRunP.v
theories/PropsOrder.v
theories/SpecOver.v
theories/OverP.v
theories/PropsOver.v
theories/SpecPart.v
theories/PartMatP.v
theories/PartRunP.v
theories/PartDataP.v
theories/PartP.v
theories/PartX.v
theories/PropsPart.v
theories/SpecApart.v
theories/ApartP.v
theories/PropsApart.v
theories/SpecSum.v
theories/SumP.v
theories/PropsSum.v
theories/SpecShare.v
theories/ShareP.v
theories/PropsShare.v
theories/SpecThreshold.v
theories/ThresholdP.v
theories/PropsThreshold.v
theories/Conform.v
theories/ColourM.v
theories/SpecColour.v
theories/ColourP.v
theories/PropsColour.v
theories/ButtonsM.v
theories/SpecButtons.v
theories/ButtonsP.v
theories/PropsButtons.v
