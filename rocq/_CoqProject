-Q theories Verif
theories/Model/Base.v
theories/Model/Blocker.v
theories/Model/Calls.v
theories/Model/Crash.v
theories/Model/Dihedral.v
theories/Model/Dihedral64.v
theories/Model/FastHJ.v
theories/Model/Forces.v
theories/Model/Formulas.v
theories/Model/Generator.v
theories/Model/InitGrid.v
theories/Model/InitGrid64.v
theories/Model/Int32.v
theories/Model/Interp.v
theories/Model/Laplace.v
theories/Model/Laplace64.v
theories/Model/Localize.v
theories/Model/MPI.v
theories/Model/Mesh.v
theories/Model/Migration.v
theories/Model/Newton.v
theories/Model/Options.v
theories/Model/Orient.v
theories/Model/Parallel.v
theories/Model/Plot.v
theories/Model/Process.v
theories/Model/Quality64.v
theories/Model/ReadBin.v
theories/Model/Round.v
theories/Model/SDF.v
theories/Model/Sets64.v
theories/Model/Simplex.v
theories/Model/Sizing.v
theories/Model/SizingCall.v
theories/Model/SizingFloat.v
theories/Model/SizingRanks.v
theories/Model/Smooth3.v
theories/Model/Snap.v
theories/Model/Solid64.v
theories/Model/Triang.v
theories/Model/UFilter.v
theories/Model/VelocityIO.v
theories/Model/WhereTo.v
theories/Proofs/AffineProofs.v
theories/Proofs/AggregateProofs.v
theories/Proofs/BlockerFloat.v
theories/Proofs/BlockerProofs.v
theories/Proofs/CallProofs.v
theories/Proofs/Choreo.v
theories/Proofs/CircumProofs.v
theories/Proofs/Compare.v
theories/Proofs/ConvergeProofs.v
theories/Proofs/CrashProofs.v
theories/Proofs/DeleteProofs.v
theories/Proofs/Dihedral64Bound.v
theories/Proofs/Dihedral64Proofs.v
theories/Proofs/DihedralProofs.v
theories/Proofs/EdgeProofs.v
theories/Proofs/EnergyProofs.v
theories/Proofs/Euclid.v
theories/Proofs/Eval64.v
theories/Proofs/ExchangeProofs.v
theories/Proofs/ExportMain.v
theories/Proofs/ExportTable.v
theories/Proofs/ExternalProofs.v
theories/Proofs/FixMeshProofs.v
theories/Proofs/ForceProofs.v
theories/Proofs/FormulaProofs.v
theories/Proofs/GenLoop.v
theories/Proofs/GridIndex.v
theories/Proofs/InitGap.v
theories/Proofs/InitGrid64Proofs.v
theories/Proofs/InitGridProofs.v
theories/Proofs/InitRanks.v
theories/Proofs/Int32Proofs.v
theories/Proofs/InterpProofs.v
theories/Proofs/Laplace64Proofs.v
theories/Proofs/LaplaceFixed.v
theories/Proofs/LaplaceProofs.v
theories/Proofs/Limgrad.v
theories/Proofs/Limgrad64.v
theories/Proofs/LimgradMain.v
theories/Proofs/LinSolve.v
theories/Proofs/LintProofs.v
theories/Proofs/LipProofs.v
theories/Proofs/ListAux.v
theories/Proofs/LocalizeProofs.v
theories/Proofs/MeshAux.v
theories/Proofs/MirrorProofs.v
theories/Proofs/NewtonProofs.v
theories/Proofs/OneSided.v
theories/Proofs/OptionsProofs.v
theories/Proofs/OrientProofs.v
theories/Proofs/OverlapProofs.v
theories/Proofs/ParallelProofs.v
theories/Proofs/PointInProofs.v
theories/Proofs/ProcessProofs.v
theories/Proofs/Quality64Proofs.v
theories/Proofs/RatioProofs.v
theories/Proofs/ReadBinProofs.v
theories/Proofs/RenumberProofs.v
theories/Proofs/RoundProofs.v
theories/Proofs/SDFBox.v
theories/Proofs/SDFMore.v
theories/Proofs/SDFPrim.v
theories/Proofs/SDFSets.v
theories/Proofs/SDFXform.v
theories/Proofs/ScaleProofs.v
theories/Proofs/Sets64Proofs.v
theories/Proofs/SimplexProofs.v
theories/Proofs/SizingArr.v
theories/Proofs/SizingCallProofs.v
theories/Proofs/SizingFloatProofs.v
theories/Proofs/SizingMain.v
theories/Proofs/SizingMore.v
theories/Proofs/SizingTotal.v
theories/Proofs/SliverProofs.v
theories/Proofs/SmoothRenumber.v
theories/Proofs/SnapProofs.v
theories/Proofs/StarveProofs.v
theories/Proofs/TetEdges.v
theories/Proofs/TopoProofs.v
theories/Proofs/TranslateProofs.v
theories/Proofs/TriEdges.v
theories/Proofs/TriangProofs.v
theories/Proofs/UFilterProofs.v
theories/Proofs/VtoeProofs.v
theories/Proofs/WhereToProofs.v
theories/Proofs/WindProofs.v
theories/Props/P01_limiter.v
theories/Props/P02_sizing.v
theories/Props/P03_readbin.v
theories/Props/P04_options.v
theories/Props/P05_sdf.v
theories/Props/P06_mesh.v
theories/Props/P07_simplex.v
theories/Props/P08_laplace.v
theories/Props/P09_slivers.v
theories/Props/P10_grid.v
theories/Props/P11_mpi.v
theories/Props/P12_ghosts.v
theories/Props/P13_blocks.v
theories/Props/P14_localize.v
theories/Props/P15_triang.v
theories/Props/P16_forces.v
theories/Props/P17_newton.v
theories/Props/P18_generate.v
theories/Props/P19_sliver_removal.v
theories/Props/P20_sizefun.v
theories/Props/P21_start.v
theories/Props/P22_fixed.v
theories/Props/P23_velocity.v
theories/Props/P24_schedules.v
theories/Props/P25_parallel.v
theories/Props/P26_userpoints.v
theories/Props/P27_failing.v
theories/Props/P28_lint.v
theories/Props/P29_onesided.v
theories/Props/P30_filter.v
theories/Props/P31_snap.v
theories/Props/P32_round.v
theories/Props/P33_links.v
theories/Props/P34_compare.v
theories/Props/P35_orient.v
theories/Props/P36_limiter64.v
theories/Props/P37_sliver_moves.v
theories/Props/P38_corners.v
theories/Props/P39_ratios.v
theories/Props/P40_units.v
theories/Props/P41_mirror.v
theories/Props/P42_scale.v
theories/Props/P43_calls.v
theories/Props/P44_grid64.v
theories/Props/P45_float.v
theories/Props/P46_checked.v
theories/Props/P47_int.v
theories/Props/P48_crash.v
theories/Props/P49_origin.v
theories/Props/P50_renumber.v
theories/Props/P51_sampled.v
theories/Props/P52_ghostbox.v
theories/Props/P53_sizingcall.v
theories/Props/P54_slope.v
theories/Props/P55_energy.v
theories/Props/P56_translate.v
theories/Props/P57_plots.v
theories/Props/P58_converge.v
theories/Props/P59_affine.v
theories/Props/P60_smooth_numbers.v
theories/Props/P61_tets.v
theories/Props/P62_smooth64.v
theories/Props/P63_gradfloat.v
theories/Props/P64_quality64.v
theories/Props/P65_solid64.v
theories/Props/P66_sliver64.v
theories/Props/P67_sets64.v
theories/Spec/Affine.v
theories/Spec/Bars.v
theories/Spec/Boxes.v
theories/Spec/Coarser.v
theories/Spec/Dihedral.v
theories/Spec/Domains.v
theories/Spec/Energy.v
theories/Spec/Export.v
theories/Spec/Geom.v
theories/Spec/GhostBox.v
theories/Spec/Grid.v
theories/Spec/Interp.v
theories/Spec/Keywords.v
theories/Spec/Linear.v
theories/Spec/Lint.v
theories/Spec/Lockstep.v
theories/Spec/MeshTopo.v
theories/Spec/Mirror.v
theories/Spec/OptionNames.v
theories/Spec/Origin.v
theories/Spec/Padded.v
theories/Spec/Plane.v
theories/Spec/Precision.v
theories/Spec/Ranks.v
theories/Spec/Renumber.v
theories/Spec/Rounded.v
theories/Spec/Scale.v
theories/Spec/Smooth.v
theories/Spec/Solids.v
theories/Spec/Subseq.v
theories/Spec/Transform.v
theories/Spec/Translate.v
theories/Spec/Velocity.v
