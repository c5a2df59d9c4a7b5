-Q theories Verif
theories/Lib.v
theories/Model_Geometry.v
theories/Spec_Geometry.v
theories/Proofs_Geometry.v
theories/Properties_Geometry.v
theories/Model_Cells.v
theories/Proofs_Cells1.v
theories/Spec_Cells.v
theories/Proofs_Cells2.v
theories/Proofs_Cells3.v
theories/Proofs_Cells4.v
theories/Proofs_Cells5.v
theories/Proofs_Cells6.v
theories/Properties_Cells.v
theories/Model_Verlet.v
theories/Proofs_Verlet.v
theories/Properties_Verlet.v
theories/Model_Store.v
theories/Spec_Store.v
theories/Proofs_Store1.v
theories/Proofs_Store2.v
theories/Proofs_Store3.v
theories/Proofs_Store4.v
theories/Proofs_Store5.v
theories/Proofs_Store6.v
theories/Properties_Store.v
theories/Model_Buffer.v
theories/Spec_Buffer.v
theories/Proofs_Buffer.v
theories/Proofs_Ghost.v
theories/Proofs_Registry.v
theories/Properties_Buffer.v
theories/Model_Topology.v
theories/Model_Messages.v
theories/Model_Ghosts.v
theories/Model_SendSize.v
theories/Spec_Topology.v
theories/Proofs_Topology1.v
theories/Proofs_Topology2.v
theories/Proofs_Topology3.v
theories/Proofs_Topology4.v
theories/Proofs_Messages1.v
theories/Proofs_Messages2.v
theories/Proofs_Messages3.v
theories/Proofs_Messages4.v
theories/Proofs_Messages5.v
theories/Proofs_Period.v
theories/Proofs_Gather.v
theories/Properties_Topology.v
theories/Properties_Ghosts.v
theories/Model_Handlers.v
theories/Spec_Handlers.v
theories/Proofs_Handlers.v
theories/Proofs_ForceMaster.v
theories/Properties_Handlers.v
theories/Model_Forces.v
theories/Spec_Forces.v
theories/Proofs_Forces.v
theories/Proofs_Forces2.v
theories/Properties_Forces.v
theories/Properties_Bonded.v
theories/Properties_Forces2.v
theories/Model_Integrators.v
theories/Spec_Integrators.v
theories/Proofs_Integrators.v
theories/Proofs_Integrators2.v
theories/Properties_Integrators.v
theories/Properties_TimeStep.v
theories/Model_Run.v
theories/Spec_Run.v
theories/Proofs_Run.v
theories/Properties_Run.v
theories/Properties_Registry.v
theories/Model_Eval.v
theories/Spec_Eval.v
theories/Proofs_Eval.v
theories/Properties_Eval.v
theories/Model_FileParse.v
theories/Spec_FileParse.v
theories/Proofs_FileParse.v
theories/Proofs_FileParse2.v
theories/Properties_FileParse.v
theories/Model_TreeParser.v
theories/Spec_TreeParser.v
theories/Proofs_TreeParser.v
theories/Properties_TreeParser.v
theories/Model_Group.v
theories/Spec_Group.v
theories/Proofs_Group.v
theories/Properties_Group.v
theories/Model_GroupMeasure.v
theories/Spec_GroupMeasure.v
theories/Proofs_GroupMeasure.v
theories/Proofs_GroupMeasure2.v
theories/Properties_GroupMeasure.v
theories/Properties_GroupBodies.v
theories/Model_Demon.v
theories/Spec_Demon.v
theories/Proofs_Demon.v
theories/Properties_Demon.v
theories/Model_Series.v
theories/Spec_Series.v
theories/Proofs_Series.v
theories/Properties_Series.v
theories/Model_Bins.v
theories/Spec_Bins.v
theories/Proofs_Bins.v
theories/Properties_Bins.v
theories/Model_Timer.v
theories/Spec_Timer.v
theories/Properties_Timer.v
theories/Model_Cluster.v
theories/Spec_Cluster.v
theories/Proofs_Cluster.v
theories/Properties_Cluster.v
theories/Model_Save.v
theories/Spec_Save.v
theories/Proofs_Save.v
theories/Proofs_Save2.v
theories/Properties_Save.v
theories/Model_Mods.v
theories/Spec_Mods.v
theories/Proofs_Mods.v
theories/Properties_Mods.v
theories/Properties_Stream.v
theories/Model_Measure.v
theories/Spec_Measure.v
theories/Proofs_Measure.v
theories/Properties_Measure.v
theories/Model_Ray.v
theories/Spec_Ray.v
theories/Proofs_Ray.v
theories/Properties_Ray.v
theories/Model_Fill.v
theories/Spec_Fill.v
theories/Proofs_Fill.v
theories/Properties_Fill.v
theories/Model_Place.v
theories/Spec_Place.v
theories/Proofs_Place.v
theories/Properties_Place.v
theories/Model_Polymer.v
theories/Spec_Polymer.v
theories/Proofs_Polymer.v
theories/Properties_Polymer.v
theories/Model_Config.v
theories/Spec_Config.v
theories/Proofs_Config.v
theories/Properties_Config.v
theories/Model_Relax.v
theories/Spec_Relax.v
theories/Properties_Relax.v
theories/Model_Langevin.v
theories/Spec_Langevin.v
theories/Properties_Langevin.v
theories/Model_GhostPairs.v
theories/Spec_GhostPairs.v
theories/Proofs_GhostPairs.v
theories/Proofs_GhostPairs2.v
theories/Proofs_GhostPairs3.v
theories/Properties_GhostPairs.v
theories/Model_Sync.v
theories/Spec_Sync.v
theories/Properties_Sync.v
theories/Model_Bmp.v
theories/Spec_Bmp.v
theories/Properties_Bmp.v
theories/Model_Palette.v
theories/Spec_Palette.v
theories/Properties_Palette.v
theories/Model_Picture.v
theories/Spec_Picture.v
theories/Properties_Picture.v
theories/Model_Rerun.v
theories/Properties_Rerun.v
theories/Model_GroupData.v
theories/Spec_GroupData.v
theories/Properties_GroupData.v
theories/Model_Stats.v
theories/Spec_Stats.v
theories/Properties_Stats.v
theories/Model_Report.v
theories/Spec_Report.v
theories/Properties_Report.v
theories/Spec_WrapReverse.v
theories/Properties_WrapReverse.v
theories/Model_DemonWall.v
theories/Spec_DemonWall.v
theories/Properties_DemonWall.v
theories/Model_Field.v
theories/Spec_Field.v
theories/Properties_Field.v
theories/Model_Collective.v
theories/Spec_Collective.v
theories/Proofs_Collective.v
theories/Properties_Collective.v
theories/Model_Summary.v
theories/Spec_Summary.v
theories/Properties_Summary.v
theories/Model_Sweep.v
theories/Spec_Sweep.v
theories/Proofs_Sweep1.v
theories/Proofs_Sweep2.v
theories/Proofs_Sweep3.v
theories/Proofs_Sweep4.v
theories/Proofs_Sweep5.v
theories/Proofs_Sweep6.v
theories/Properties_Sweep.v
theories/Model_Spin.v
theories/Spec_Spin.v
theories/Properties_Spin.v
theories/Model_Steps.v
theories/Spec_Steps.v
theories/Proofs_Steps.v
theories/Properties_Steps.v
theories/Proofs_Steady.v
theories/Properties_Steady.v
theories/Model_Trajectory.v
theories/Spec_Trajectory.v
theories/Proofs_Trajectory.v
theories/Properties_Trajectory.v
theories/Spec_Symmetry.v
theories/Proofs_Symmetry.v
theories/Properties_Symmetry.v
theories/Model_Records.v
theories/Spec_Records.v
theories/Properties_Records.v
theories/Model_Parallel.v
theories/Spec_Parallel.v
theories/Proofs_Parallel.v
theories/Properties_Parallel.v
theories/Model_NetForce.v
theories/Spec_NetForce.v
theories/Proofs_NetForce.v
theories/Properties_NetForce.v
theories/Model_Stripe.v
theories/Spec_Stripe.v
theories/Proofs_Stripe.v
theories/Properties_Stripe.v
theories/Model_Bonds.v
theories/Spec_Bonds.v
theories/Proofs_Bonds.v
theories/Properties_Bonds.v
