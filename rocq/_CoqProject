-Q theories Verif
theories/Outcome.v
theories/Num.v
theories/Algo.v
theories/AlgoFacts.v
theories/Box.v
theories/BoxFacts.v
theories/BoxOverlap.v
theories/BoxExamples.v
theories/P_Box.v
theories/RTree.v
theories/RTreeFun.v
theories/RTreeHeap.v
theories/RTreeRot.v
theories/RTreeRefit.v
theories/RTreeEdit.v
theories/RTreeExtract.v
theories/RTreeInsert.v
theories/RTreeIter.v
theories/RTreeOverlap.v
theories/RTreeCollide.v
theories/RTreeUpdate.v
theories/RTreeOps.v
theories/RTreeBounds.v
theories/RTreeSpec.v
theories/RTreeHist.v
theories/RTreeThm.v
theories/RTreeArea.v
theories/RTreeCost.v
theories/RTreeMove.v
theories/RTreeExamples.v
theories/RTreeHeight.v
theories/P_RTree.v
theories/Mat.v
theories/MatFacts.v
theories/MatSolve.v
theories/MatExamples.v
theories/P_Mat.v
theories/Geom.v
theories/GeomClosest.v
theories/BoxScale.v
theories/GeomPoly.v
theories/GeomArea.v
theories/GeomExamples.v
theories/P_Geom.v
theories/Transform.v
theories/TransformFacts.v
theories/P_Transform.v
theories/Body.v
theories/BodyFacts.v
theories/BodyMore.v
theories/P_Body.v
theories/Alloc.v
theories/AllocFacts.v
theories/P_Alloc.v
theories/Renderer.v
theories/RendererFacts.v
theories/P_Renderer.v
theories/Constraint.v
theories/Contact.v
theories/ConstraintFacts.v
theories/ConstraintMomentum.v
theories/ConstraintLimits.v
theories/ConstraintMotor.v
theories/Sign.v
theories/ContactFacts.v
theories/ContactSolve.v
theories/ConstraintThm.v
theories/P_Constraint.v
theories/World.v
theories/WorldHoare.v
theories/WorldInv.v
theories/WorldFrame.v
theories/WorldIsland.v
theories/WorldSolve.v
theories/WorldComp.v
theories/WorldSleep.v
theories/WorldOps.v
theories/WorldCols.v
theories/WorldClean.v
theories/WorldKill.v
theories/WorldStep.v
theories/WorldStrict.v
theories/WorldHist.v
theories/WorldThm.v
theories/WorldUse.v
theories/WorldGrab.v
theories/WorldMass.v
theories/WorldReal.v
theories/WorldDemo.v
theories/WorldLib.v
theories/WorldWit.v
theories/WorldMove.v
theories/WorldMomentum.v
theories/WorldMomLib.v
theories/WorldMomEx.v
theories/WorldGround.v
theories/WorldClash.v
theories/WorldGroundEx.v
theories/WorldFlight.v
theories/P_Motion.v
theories/ContactPos.v
theories/ConstraintPos.v
theories/DistancePos.v
theories/ConstraintEnergy.v
theories/BodyField.v
theories/P_Joints.v
theories/P_World.v
theories/Gjk.v
theories/GjkFacts.v
theories/GjkThm.v
theories/GjkEpa.v
theories/GjkSep.v
theories/GjkExamples.v
theories/P_Gjk.v
theories/Manifold.v
theories/ManifoldFacts.v
theories/ManifoldThm.v
theories/ManifoldExamples.v
theories/P_Manifold.v
theories/Scene.v
theories/SceneFacts.v
theories/P_Scene.v
theories/App.v
theories/AppFacts.v
theories/P_App.v
