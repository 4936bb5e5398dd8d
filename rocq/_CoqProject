-Q theories Verif
theories/Base.v
theories/Scalar.v
theories/BaseLemmas.v
theories/Wpe.v
theories/Vector.v
theories/VecSpec.v
theories/VectorFacts.v
theories/Matrix.v
theories/Array2D.v
theories/BlockM.v
theories/Diagonal.v
theories/RealMatrixM.v
theories/MatSpec.v
theories/MatFacts.v
theories/Array2DFacts.v
theories/BlockLoops.v
theories/BlockFacts.v
theories/BlockFacts2.v
theories/BlockFacts3.v
theories/BlockSub.v
theories/BlockMul.v
theories/DiagFacts.v
theories/WalkFacts.v
theories/Float64.v
theories/Float64Facts.v
theories/MatrixOps.v
theories/ExampleOps.v
theories/VecProps.v
theories/P_Vector.v
theories/HistSpec.v
theories/MatHist.v
theories/MatProps.v
theories/P_Matrix.v
theories/DiagSpec.v
theories/DiagFacts2.v
theories/DiagFacts3.v
theories/Float64Facts2.v
theories/DiagProps.v
theories/P_Float.v
theories/P_Diag.v
theories/RealOps.v
theories/RSum.v
theories/RealMat.v
theories/RealMat2.v
theories/RealVec.v
theories/ExampleReal.v
theories/RealMat3.v
theories/P_Real.v
theories/TabTac.v
theories/Det.v
theories/Tri.v
theories/LU.v
theories/LUSpec.v
theories/LUFacts.v
theories/LUFacts2.v
theories/LUReal.v
theories/LUProps.v
theories/Cholesky.v
theories/CholSpec.v
theories/CholFacts.v
theories/CholReal.v
theories/CholProps.v
theories/FSum.v
theories/QR.v
theories/QRSpec.v
theories/QRFacts.v
theories/QRFacts2.v
theories/QRFacts3.v
theories/House.v
theories/QRReal.v
theories/QRReal2.v
theories/QRReal3.v
theories/QRProps.v
theories/QRProps2.v
theories/RectChol.v
theories/RectSpec.v
theories/RectFacts.v
theories/RectReal.v
theories/RectProps.v
theories/Hess.v
theories/Tridiag.v
theories/Bidiag.v
theories/HessSpec.v
theories/HessFacts.v
theories/HessReal.v
theories/TridiagFacts.v
theories/TridiagReal.v
theories/BidiagFacts.v
theories/BidiagReal.v
theories/TransProps.v
theories/Schur.v
theories/Eigen.v
theories/EigenSpec.v
theories/EigenFacts.v
theories/EigenFacts2.v
theories/Frob.v
theories/RTol.v
theories/EigenReal.v
theories/EigenSort.v
theories/EigenReal2.v
theories/EigenSolve.v
theories/EigenSmall.v
theories/FloatOrder.v
theories/EigenProps.v
theories/EigenProps2.v
theories/SchurSpec.v
theories/SchurSpecR.v
theories/SchurFacts.v
theories/SchurFacts2.v
theories/SchurReal.v
theories/SchurReal2.v
theories/SchurReal3.v
theories/SchurReal4.v
theories/SchurReal5.v
theories/SchurReal6.v
theories/SchurProps.v
theories/SVD.v
theories/SVDSpec.v
theories/SVDFacts.v
theories/SVDFacts2.v
theories/SVDFacts3.v
theories/SVDReal.v
theories/SVDReal2.v
theories/SVDReal3.v
theories/SVDReal4.v
theories/SVDReal5.v
theories/SVDOrder.v
theories/SVDReal6.v
theories/SVDFacts4.v
theories/SVDSpecR.v
theories/SVDPinv.v
theories/SVDTerm.v
theories/SVDProps.v
theories/SVDPropsR.v
theories/SVDEx.v
theories/SVDConv.v
theories/SVDConv2.v
theories/SVDConv3.v
theories/SVDDrop.v
theories/ExampleDec.v
theories/ExampleTol.v
theories/Heap.v
theories/HeapSpec.v
theories/HeapFacts.v
theories/HeapIndep.v
theories/HeapSim.v
theories/HeapSim2.v
theories/HeapSim3.v
theories/HeapSim4.v
theories/HeapMain.v
theories/HeapVec.v
theories/HeapProps.v
theories/P_LU.v
theories/P_Chol.v
theories/P_QR.v
theories/P_Rect.v
theories/P_Trans.v
theories/P_Eigen.v
theories/P_Schur.v
theories/P_SVD.v
theories/P_Heap.v
theories/AccSpec.v
theories/AccFacts.v
theories/HeapDec.v
theories/HeapDecFacts.v
theories/P_Acc.v
theories/EigenGenSpec.v
theories/EigenGen.v
theories/EigenGenR.v
theories/EigenGenP.v
theories/EigenGenRP.v
theories/EigenGenEx.v
theories/EigenCplx.v
theories/P_EigenGen.v
theories/HeapAtomSpec.v
theories/HeapAtom.v
theories/HeapBlk.v
theories/HeapAtomBlk.v
theories/P_Atom.v
theories/HeapPutSpec.v
theories/HeapPut.v
theories/HeapPutBlk.v
theories/P_Put.v
theories/HeapUpdSpec.v
theories/HeapUpd.v
theories/P_Upd.v
theories/RndSpec.v
theories/FloatR.v
theories/RndSum.v
theories/RndMat.v
theories/RndEx.v
theories/P_Round.v
theories/RndTri.v
theories/RndLU.v
theories/RndLUEx.v
theories/P_RoundLU.v
theories/RndChol.v
theories/RndCholEx.v
theories/P_RoundChol.v
theories/RndHouse.v
theories/RndRefl.v
theories/RndApply.v
theories/RndQRSpec.v
theories/RndQR.v
theories/RndQR2.v
theories/RndQREx.v
theories/P_RoundQR.v
theories/RRPerm.v
theories/RndRR.v
theories/RndRR2.v
theories/RndRREx.v
theories/P_RoundRR.v
theories/ErrorGo.v
theories/ErrSpec.v
theories/ErrFacts.v
theories/P_Error.v
theories/RndFrob.v
theories/RndBidiag.v
theories/RndBidiagU.v
theories/RndBidiag2.v
theories/RndBidiagSpec.v
theories/RndBidiag3.v
theories/RndBidiagEx.v
theories/P_RoundBidiag.v
theories/RndDetSpec.v
theories/RndDet.v
theories/RndNorm.v
theories/RndDetEx.v
theories/P_RoundDet.v
theories/RndHess.v
theories/RndHess2.v
theories/RndHess3.v
theories/RndHess4.v
theories/RndHessSpec.v
theories/RndHess5.v
theories/RndHessEx.v
theories/P_RoundHess.v
theories/RndFin.v
theories/RndFin2.v
theories/RndFin2Ex.v
theories/RndTd.v
theories/RndTd2.v
theories/RndTd3.v
theories/RndTd4.v
theories/RndTd5.v
theories/RndTdSpec.v
theories/RndTd6.v
theories/RndTdEx.v
theories/P_RoundTridiag.v
theories/HeapRefSpec.v
theories/HeapRef.v
theories/HeapRef2.v
theories/HeapRef3.v
theories/HeapRef4.v
theories/HeapRef5.v
theories/HeapRef6.v
theories/P_HeapRef.v
theories/HeapSolve.v
theories/HeapSolveFacts.v
theories/HeapRef7.v
theories/HeapRef8.v
theories/HeapRef9.v
theories/HeapSolveSpec.v
theories/HeapRef10.v
theories/HeapArith.v
theories/HeapArithSpec.v
theories/HeapArithFacts.v
theories/HeapArithMain.v
theories/HeapArithProps.v
theories/P_HeapArith.v
theories/HeapBlkArith.v
theories/HeapBlkArithSpec.v
theories/HeapBlkArithFacts.v
theories/HeapBlkArithMain.v
theories/HeapBlkArithProps.v
theories/P_HeapBlkArith.v
theories/HeapExpr.v
theories/HeapExprSpec.v
theories/HeapExprFacts.v
theories/P_HeapExpr.v
theories/HeapPower.v
theories/HeapPowerSpec.v
theories/HeapPowerFacts.v
theories/P_HeapPower.v
theories/P_HeapSolve.v
theories/HeapCo.v
theories/HeapCoCode.v
theories/HeapCoSpec.v
theories/HeapCoFacts.v
theories/HeapCoRun.v
theories/HeapCoKeep.v
theories/HeapCoRel.v
theories/HeapCoStep.v
theories/HeapCoPar.v
theories/HeapCoMain.v
theories/HeapCoArith.v
theories/P_HeapCo.v
theories/HeapCell.v
theories/HeapCellSpec.v
theories/HeapCellFacts.v
theories/HeapCellAlone.v
theories/P_HeapCell.v
