-Q theories Verif
theories/Scalar.v
theories/Outcome.v
theories/Linalg.v
theories/Constraint.v
theories/Formulation.v
theories/ListUtil.v
theories/FormSpec.v
theories/FormInv.v
theories/FormInvB.v
theories/FormInvC.v
theories/FormOps.v
theories/FormSafe.v
theories/FormSafe2.v
theories/FormContact.v
theories/FormDataSpec.v
theories/FormData.v
theories/FormZero.v
theories/FormHist.v
theories/FormPhysSpec.v
theories/RSum.v
theories/FormPhys.v
theories/FormDecode.v
theories/FormTrans.v
theories/FormLevels.v
theories/FormMain.v
theories/FormCheck.v
theories/FormWitness.v
theories/FormRefute.v
theories/FormNames.v
theories/Prop_Formulation.v
theories/Solvers.v
theories/SolverSpec.v
theories/SolverSizes.v
theories/SolverHist.v
theories/SolverSem.v
theories/SolverCost.v
theories/Check.v
theories/SolverMain.v
theories/SolverExist.v
theories/SolverRefute.v
theories/FormSolver.v
theories/Prop_Solvers.v
theories/Contacts.v
theories/ContactSpec.v
theories/ContactProofs.v
theories/ContactReal.v
theories/ContactWrench.v
theories/ContactRefute.v
theories/ContactSetters.v
theories/Prop_Contacts.v
theories/Masks.v
theories/MaskReal.v
theories/JointBounds.v
theories/JointSpec.v
theories/JointReal.v
theories/JointLimits.v
theories/JointViab.v
theories/JointTask.v
theories/JointPva.v
theories/JointMaskSize.v
theories/JointRefute.v
theories/JointSetters.v
theories/Prop_JointBounds.v
theories/JointTasks.v
theories/JointTasksP.v
theories/JointTasksR.v
theories/Prop_JointTasks.v
theories/FrameTasks.v
theories/FrameTasksP.v
theories/FrameTasksR.v
theories/FrameRefute.v
theories/FrameSetters.v
theories/Prop_FrameTasks.v
theories/ForceTasks.v
theories/ForceCop.v
theories/ForceTasksR.v
theories/ForceSetters.v
theories/Prop_ForceTasks.v
theories/Recorders.v
theories/RecordersP.v
theories/FloatUtils.v
theories/MatrixFile.v
theories/SvdUtils.v
theories/ConstTraj.v
theories/RobotModel.v
theories/RobotModelR.v
theories/Prop_Recorders.v
theories/Prop_MathUtils.v
theories/Prop_Robot.v
theories/ContactMotion.v
theories/ContactMotionP.v
theories/MeasuredForces.v
theories/MeasuredForcesP.v
theories/Prop_ContactMotion.v
theories/Prop_Names.v
theories/SolverSettings.v
theories/Prop_Settings.v
theories/TaskDims.v
theories/Prop_Dims.v
theories/Doubles.v
theories/DoubleJoints.v
theories/DoublePva.v
theories/DoubleMasks.v
theories/DoubleCases.v
theories/Prop_Doubles.v
theories/PyData.v
theories/Prop_Python.v
theories/PyCopies.v
theories/Prop_PyCopies.v
theories/SolverOutput.v
theories/SolverRows.v
theories/SolverReport.v
theories/SolverOutputR.v
theories/Prop_SolverOutput.v
theories/LinearLoop.v
theories/ClosedLoop.v
theories/ClosedLoopR.v
theories/Prop_ClosedLoop.v
theories/Walking.v
theories/WalkingSpec.v
theories/WalkingP.v
theories/WalkingQ.v
theories/WalkingR.v
theories/PlotCop.v
theories/Prop_Walking.v
theories/FormDrop.v
theories/FormDropQ.v
theories/Prop_Drop.v
theories/RotLoop.v
theories/RotLoop2.v
theories/OrientLoop.v
theories/OrientLoopR.v
theories/Prop_Orient.v
theories/ContactHold.v
theories/ContactHoldP.v
theories/ContactHoldR.v
theories/Prop_ContactHold.v
theories/CaptureLoop.v
theories/CaptureLoopR.v
theories/Prop_Capture.v
theories/ObeyedPlan.v
theories/ObeyedPlanP.v
theories/ObeyedPlanR.v
theories/Prop_Obeyed.v
theories/SolverKept.v
theories/FormWeights.v
theories/SoftTasks.v
theories/SoftPlan.v
theories/SoftSame.v
theories/SoftOrder.v
theories/SoftOrderR.v
theories/Prop_SoftTasks.v
theories/SolverText.v
theories/Prop_SolverText.v
theories/SampledTrack.v
theories/JointTrack.v
theories/JointProgram.v
theories/Prop_JointProgram.v
theories/ExactSolver.v
theories/FormLooks.v
theories/ArmProgram.v
theories/ArmCase.v
theories/Prop_ArmProgram.v
theories/PressureRecord.v
theories/FootReport.v
theories/Prop_Exercises.v
theories/BipedBook.v
theories/BipedPlan.v
theories/BipedBest.v
theories/BipedFeet.v
theories/BipedSizes.v
theories/Prop_BipedPlan.v
theories/FootRefs.v
theories/FootRefsP.v
theories/Prop_FootRefs.v
theories/GuiLoop.v
theories/GuiLoopP.v
theories/Prop_GuiLoop.v
theories/SoftContacts.v
theories/SoftCalls.v
theories/SoftContactsR.v
theories/Prop_SoftContacts.v
theories/Sheets.v
theories/SheetBest.v
theories/Demos.v
theories/DemosBest.v
theories/Prop_Demos.v
theories/CopWalk.v
theories/CopWalkP.v
theories/Prop_CopWalk.v
theories/ConstraintLife.v
theories/ConstraintLifeP.v
theories/Prop_ConstraintLife.v
theories/ComProgram.v
theories/ComProgramP.v
theories/Prop_ComProgram.v
theories/ComSliders.v
theories/ComSlidersP.v
theories/Prop_ComSliders.v
