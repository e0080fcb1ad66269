-Q theories Verif
theories/Base.v
theories/M_Geometry.v
theories/S_Geometry.v
theories/P_Geometry.v
theories/Prop_Geometry.v
theories/M_Shapes.v
theories/P_Pow.v
theories/S_Shapes.v
theories/P_Shapes.v
theories/P_Sampling.v
theories/Prop_Shapes.v
theories/M_Particle.v
theories/S_Particle.v
theories/P_Particle.v
theories/Prop_Particle.v
theories/M_Quadrature.v
theories/S_Fem.v
theories/Prop_Quadrature.v
theories/M_MatElem.v
theories/P_MatElem.v
theories/Prop_MatElem.v
theories/P_Energy.v
theories/Prop_Energy.v
theories/M_Mesh.v
theories/M_Operator.v
theories/S_Operator.v
theories/P_Mesh.v
theories/P_Operator.v
theories/P_Operator2.v
theories/P_Global.v
theories/P_CreateMesh.v
theories/P_Stokes.v
theories/P_Operator3.v
theories/M_Bc.v
theories/S_Bc.v
theories/P_Bc.v
theories/P_Diag.v
theories/Prop_Operator.v
theories/Prop_Operator2.v
theories/M_Assembly.v
theories/P_Assembly.v
theories/P_Assembly2.v
theories/P_Telescope.v
theories/P_Constant.v
theories/P_AssemblyBc.v
theories/Prop_Assembly.v
theories/Prop_Assembly2.v
theories/M_Truncation.v
theories/M_SingNormal.v
theories/M_SingTang.v
theories/M_SingWrap.v
theories/P_Sing.v
theories/Prop_Truncation.v
theories/P_SingCart.v
theories/Prop_SingNormal.v
theories/P_SingAxis.v
theories/Prop_SingAxis.v
theories/Prop_SingTang.v
theories/M_Singularity.v
theories/P_SingDir.v
theories/Prop_Singularity.v
theories/Prop_Singularity2.v
theories/Prop_Singularity3.v
theories/M_Vec.v
theories/Prop_Vec.v
theories/M_Interp.v
theories/Prop_Interp.v
theories/M_ParticleOp.v
theories/S_ParticleOp.v
theories/P_ParticleOp.v
theories/P_Circle.v
theories/P_Forces.v
theories/P_Forces2.v
theories/Prop_ParticleOp.v
theories/M_Problem.v
theories/S_Problem.v
theories/P_Problem.v
theories/P_Problem2.v
theories/Prop_Problem.v
theories/Prop_Problem2.v
theories/M_Solver.v
theories/S_Solver.v
theories/Prop_Solver.v
theories/M_AddSing.v
theories/S_AddSing.v
theories/P_AddSing.v
theories/Prop_AddSing.v
theories/Prop_SingBox.v
theories/Prop_SingForces.v
theories/Prop_SingSol.v
theories/M_Prealloc.v
theories/P_Prealloc.v
theories/Prop_Prealloc.v
theories/M_Vtk.v
theories/Prop_Vtk.v
theories/Prop_Sizes.v
theories/P_LinAlg.v
theories/P_PressKer.v
theories/P_PressKer3.v
theories/P_Korn.v
theories/Prop_WellPosed.v
theories/Prop_StokesUnique.v
theories/P_Flux.v
theories/Prop_Flux.v
theories/M_NullSpace.v
theories/Prop_NullSpace.v
theories/S_Exact.v
theories/P_Gather.v
theories/P_Exact.v
theories/P_Stencil.v
theories/P_Stencil3.v
theories/P_Flow.v
theories/Prop_Exact.v
theories/Prop_Dissipation.v
theories/P_Precond.v
theories/P_QuadTab.v
theories/P_Div.v
theories/M_Precond.v
theories/Prop_Precond.v
theories/S_Turn.v
theories/P_TurnTab.v
theories/P_Turn.v
theories/P_TurnGrid.v
theories/P_TurnForm.v
theories/Prop_Turn.v
theories/S_Projection.v
theories/P_Projection.v
theories/Prop_Projection.v
theories/M_Double.v
theories/S_Double.v
theories/P_Double.v
theories/P_Double2.v
theories/P_Double3.v
theories/P_Double4.v
theories/P_Double5.v
theories/P_Double6.v
theories/P_Double7.v
theories/P_Double8.v
theories/Prop_Double.v
theories/M_DoubleMat.v
theories/P_DoubleMat.v
theories/Prop_DoubleMat.v
theories/M_Shapes3.v
theories/P_Sampling3.v
theories/P_Surface3.v
theories/Prop_Sampling3.v
theories/M_Pmm.v
theories/Prop_Pmm.v
theories/M_DoubleOp.v
theories/S_DoubleOp.v
theories/P_DoubleOp.v
theories/P_DoubleOp2.v
theories/P_DoubleOp3.v
theories/P_DoubleOp4.v
theories/P_DoubleOp5.v
theories/P_DoubleElem.v
theories/Prop_DoubleOp.v
theories/M_DoubleBc.v
theories/S_DoubleBc.v
theories/P_DoubleBc.v
theories/Prop_DoubleBc.v
theories/M_Triang.v
theories/Prop_Triang.v
theories/M_DoublePart.v
theories/S_DoublePart.v
theories/P_DoublePart.v
theories/P_DoublePart2.v
theories/P_DoublePart3.v
theories/Prop_DoublePart.v
theories/S_Accuracy.v
theories/P_Accuracy.v
theories/Prop_Accuracy.v
theories/P_Still.v
theories/S_Consistency.v
theories/P_Stencil4.v
theories/P_Stencil5.v
theories/S_Consistency2.v
theories/P_Stencil6.v
theories/P_Consistency.v
theories/P_Consistency2.v
theories/P_Consistency3.v
theories/P_Consistency4.v
theories/Prop_Consistency.v
theories/S_Convergence.v
theories/P_Conv.v
theories/Prop_Convergence.v
theories/P_Consistency5.v
theories/P_Consistency6.v
theories/Prop_Consistency2.v
theories/S_Convergence2.v
theories/P_Conv2.v
theories/P_Conv3.v
theories/Prop_Convergence2.v
