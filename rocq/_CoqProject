-Q theories Verif
theories/Base.v
theories/Model_Common.v
theories/Spec_Common.v
theories/Proof_Common.v
theories/Prop_Common.v
theories/RSum.v
theories/RBase.v
theories/RDer.v
theories/Poly.v
theories/Spec_Mat.v
theories/Model_Lagrange.v
theories/Spec_Lagrange.v
theories/Lagrange_Math.v
theories/Proof_Lagrange.v
theories/Proof_LagElem.v
theories/Ex_Lagrange.v
theories/Prop_Lagrange.v
theories/NatSum.v
theories/Model_Conn.v
theories/Spec_Conn.v
theories/Proof_Conn.v
theories/Proof_Neigh.v
theories/Proof_Elem.v
theories/Prop_Conn.v
theories/Model_Patch.v
theories/Spec_Patch.v
theories/Proof_Patch.v
theories/Proof_Bdy.v
theories/Prop_Patch.v
theories/Model_Refine.v
theories/Proof_Refine.v
theories/Prop_Refine.v
theories/Model_Geom.v
theories/Proof_Geom.v
theories/Proof_Tri.v
theories/Model_Vol.v
theories/Spec_Vol.v
theories/Proof_Vol.v
theories/Prop_Geom.v
theories/Det.v
theories/Model_LU.v
theories/Spec_LU.v
theories/Proof_LU.v
theories/Proof_LU2.v
theories/Proof_LU3.v
theories/Prop_LU.v
theories/Model_Jac.v
theories/Proof_Jac.v
theories/Prop_Jac.v
theories/Model_Ref.v
theories/Spec_Ref.v
theories/Proof_Ref.v
theories/Proof_Ref2.v
theories/Proof_Ref3.v
theories/Proof_Ref4.v
theories/Proof_Ref5.v
theories/Proof_Ref6.v
theories/Prop_Ref.v
theories/Model_HexN.v
theories/Spec_HexN.v
theories/Proof_HexN.v
theories/Proof_HexN2.v
theories/Proof_HexN3.v
theories/Proof_QuadN.v
theories/Prop_HexN.v
theories/Jacobi_Math.v
theories/Jacobi_Int.v
theories/Model_Poly.v
theories/Spec_Poly.v
theories/Proof_Poly.v
theories/Proof_Gauss.v
theories/LinAlg.v
theories/Model_Gauss.v
theories/Spec_Gauss.v
theories/Proof_Gauss2.v
theories/Proof_LegElem.v
theories/Prop_Poly.v
theories/Model_Points.v
theories/Proof_Points.v
theories/Prop_Points.v
theories/Model_Shape.v
theories/Spec_Shape.v
theories/Proof_Shape.v
theories/Proof_Shape2.v
theories/Proof_Shape3.v
theories/Proof_Shape4.v
theories/Proof_Shape5.v
theories/Proof_Shape6.v
theories/Prop_Shape.v
theories/Spec_Quad.v
theories/Model_Quad.v
theories/Proof_Quad.v
theories/Proof_Quad2.v
theories/Proof_Quad3.v
theories/Proof_Quad4.v
theories/Proof_Quad5.v
theories/Proof_Quad6.v
theories/Proof_Quad7.v
theories/Prop_Quad.v
theories/Spec_Box.v
theories/Model_Box.v
theories/Proof_Box.v
theories/Proof_Box2.v
theories/Prop_Box.v
theories/Model_Vtk.v
theories/Spec_Vtk.v
theories/Proof_Vtk.v
theories/Proof_Vtk2.v
theories/Proof_Vtk3.v
theories/Prop_Vtk.v
theories/Model_Blas.v
theories/Spec_Blas.v
theories/Proof_Blas.v
theories/Prop_Blas.v
theories/Model_High.v
theories/Spec_High.v
theories/Proof_Lob.v
theories/Proof_High.v
theories/Proof_High2.v
theories/Proof_High3.v
theories/Prop_High.v
theories/Proof_High4.v
theories/Prop_HighJac.v
theories/Model_Full.v
theories/Spec_Full.v
theories/Proof_Full.v
theories/Proof_Full2.v
theories/Proof_Full3.v
theories/Proof_Full4.v
theories/Prop_Full.v
theories/Prop_Full2.v
theories/Model_Average.v
theories/Spec_Average.v
theories/Proof_Average.v
theories/Proof_Average2.v
theories/Proof_Average3.v
theories/Proof_Average4.v
theories/Proof_Average5.v
theories/Proof_Average6.v
theories/Prop_Average.v
theories/Prop_Average2.v
theories/Model_File.v
theories/Spec_File.v
theories/Proof_File.v
theories/Proof_File2.v
theories/Proof_File3.v
theories/Prop_File.v
theories/Spec_Dump.v
theories/Proof_Dump.v
theories/Prop_Dump.v
theories/Prop_Init.v
theories/Spec_Run.v
theories/Proof_Run.v
theories/Prop_Run.v
theories/Proof_Lattice.v
theories/Prop_Run2.v
theories/Spec_Gcl.v
theories/Model_Gcl.v
theories/Proof_Gcl.v
theories/Proof_Gcl2.v
theories/Proof_Gcl3.v
theories/Proof_Gcl4.v
theories/Proof_Gcl5.v
theories/Proof_Gcl6.v
theories/Proof_Gcl7.v
theories/Prop_Gcl.v
theories/Rolle.v
theories/Spec_Annulus.v
theories/Model_Annulus.v
theories/Proof_Annulus.v
theories/Proof_Annulus2.v
theories/Proof_Annulus3.v
theories/Prop_Annulus.v
theories/Model_Select.v
theories/Spec_Select.v
theories/Prop_Select.v
theories/Interp_Err.v
theories/Spec_Accuracy.v
theories/Prop_Accuracy.v
theories/Quad_Err.v
theories/Prop_QuadErr.v
theories/Spec_Float.v
theories/Float_Base.v
theories/Model_FloatLU.v
theories/Proof_FloatLU.v
theories/Prop_FloatLU.v
theories/Model_FloatLagrange.v
theories/Proof_FloatLagrange.v
theories/Float_Eval.v
theories/Proof_FloatLagrange2.v
theories/Ex_FloatLagrange.v
theories/Prop_FloatLagrange.v
theories/Model_Complex.v
theories/CSum.v
theories/Spec_Complex.v
theories/CPoly.v
theories/CLagrange_Math.v
theories/CStep.v
theories/CStep2.v
theories/Proof_Complex.v
theories/Proof_Complex2.v
theories/Proof_CParam.v
theories/Proof_Complex3.v
theories/Proof_Complex4.v
theories/Prop_Complex.v
theories/Model_Int.v
theories/Spec_Int.v
theories/Proof_Int.v
theories/Proof_Int2.v
theories/Proof_Int3.v
theories/Proof_Int4.v
theories/Proof_Int5.v
theories/Proof_Int6.v
theories/Prop_Int.v
theories/Proof_Int7.v
theories/Model_FloatPoly.v
theories/Spec_FloatPoly.v
theories/Three_Term.v
theories/Proof_FloatPoly.v
theories/Proof_FloatPoly2.v
theories/Prop_FloatPoly.v
theories/Model_FloatRefine.v
theories/Spec_FloatRefine.v
theories/Proof_FloatRefine.v
theories/Proof_FloatRefine2.v
theories/Proof_FloatRefine3.v
theories/Proof_FloatRefine4.v
theories/Proof_FloatRefine5.v
theories/Ex_FloatRefine.v
theories/Prop_FloatRefine.v
theories/Model_FloatPatch.v
theories/Spec_FloatPatch.v
theories/Proof_FloatPatch.v
theories/Proof_FloatPatch2.v
theories/Proof_FloatPatch3.v
theories/Proof_FloatPatch4.v
theories/Proof_FloatPatch5.v
theories/Ex_FloatPatch.v
theories/Prop_FloatPatch.v
theories/Model_FloatGeom.v
theories/Spec_FloatGeom.v
theories/Proof_FloatGeom.v
theories/Proof_FloatGeom2.v
theories/Proof_FloatGeom3.v
theories/Proof_FloatGeom4.v
theories/Proof_FloatGeom5.v
theories/Ex_FloatGeom.v
theories/Prop_FloatGeom.v
theories/Spec_FloatAverage.v
theories/Model_FloatAverage.v
theories/Proof_FloatAverage.v
theories/Proof_FloatAverage2.v
theories/Proof_FloatAverage3.v
theories/Prop_FloatAverage.v
theories/Proof_FloatAverage4.v
theories/Prop_FloatAverage2.v
theories/Spec_FloatRun.v
theories/Proof_FloatRun.v
theories/Proof_FloatRun2.v
theories/Prop_FloatRun.v
theories/Proof_FloatRun3.v
theories/Prop_FloatRun2.v
theories/Model_FloatSetup.v
theories/Spec_FloatSetup.v
theories/Proof_FloatSetup.v
theories/Proof_FloatSetup2.v
theories/Proof_FloatSetup3.v
theories/Ex_FloatSetup.v
theories/Prop_FloatSetup.v
theories/Model_FloatPoints.v
theories/Spec_FloatPoints.v
theories/Proof_FloatPoints.v
theories/Prop_FloatPoints.v
