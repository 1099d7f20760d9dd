-Q theories Verif
theories/Num.v
theories/Spec.v
theories/M_Cg.v
theories/L_Geom.v
theories/L_Polar.v
theories/L_Cg.v
theories/M_ConePolygon.v
theories/L_Atan2.v
theories/L_Cone.v
theories/L_ConePolygon.v
theories/M_Hull.v
theories/L_Hull.v
theories/W_Hull.v
theories/P_Hull.v
theories/M_Gen.v
theories/L_Gen.v
theories/W_Gen.v
theories/P_Gen.v
theories/M_Motion.v
theories/L_Motion.v
theories/P_Motion.v
theories/M_Obstacle.v
theories/L_Obstacle.v
theories/P_Obstacle.v
theories/M_Ellipse.v
theories/L_Ellipse.v
theories/L_EllipsePolygon.v
theories/P_Ellipse.v
theories/M_Polygon.v
theories/L_Polygon.v
theories/P_Polygon.v
theories/M_StarPolygon.v
theories/L_StarPolygon.v
theories/P_StarPolygon.v
theories/M_StarHull.v
theories/M_Clusters.v
theories/L_Clusters.v
theories/P_Clusters.v
theories/M_Starify.v
theories/L_Starify.v
theories/P_Starify.v
theories/L_HullDisjoint.v
theories/P_StarifyResult.v
theories/P_StarifyTotal.v
theories/W_Starify.v
theories/P_StarifyRefuted.v
theories/P_StarHull.v
theories/P_KernelPoints.v
theories/M_Combination.v
theories/P_Combination.v
theories/P_CombBoundary.v
theories/P_CombNormal.v
theories/P_StarifyIds.v
theories/P_StarifyIdsEx.v
theories/M_PolHull.v
theories/S_PolHull.v
theories/L_PolHull.v
theories/W_PolWorld.v
theories/W_PolTransfer.v
theories/L_PolHull2.v
theories/L_PolHull3.v
theories/W_PolTriangles.v
theories/P_PolHull.v
theories/M_Kernel.v
theories/L_KernelSim.v
theories/W_KernelQ.v
theories/L_KernelMove.v
theories/L_KernelDart.v
theories/S_Kernel.v
theories/L_DartGeom.v
theories/L_DartKernel.v
theories/L_KernelConvex.v
theories/P_Kernel.v
theories/P_KernelRings.v
theories/S_Guarantee.v
theories/L_Guarantee.v
theories/P_Guarantee.v
theories/W_Guarantee.v
theories/S_ConeRegion.v
theories/L_ConeRegion.v
theories/P_ConeRegion.v
theories/M_Shapes.v
theories/P_Shapes.v
theories/W_Shapes.v
theories/M_ConeSets.v
theories/P_ConeSets.v
theories/M_Arrays.v
theories/P_Arrays.v
theories/M_Names.v
theories/P_Names.v
theories/M_Convexity.v
theories/P_Convexity.v
theories/M_History.v
theories/P_History.v
theories/P_HistoryRefuted.v
theories/P_GuaranteeConvex.v
theories/W_GuaranteeConvex.v
theories/L_Wind.v
theories/L_Ring.v
theories/L_Ring2.v
theories/L_Lit.v
theories/L_Lit2.v
theories/L_Order.v
theories/L_Order2.v
theories/L_Lit3.v
theories/L_Lit4.v
theories/L_Lit5.v
theories/L_Lit6.v
theories/S_HullOne.v
theories/L_PolHull4.v
theories/L_PolHull5.v
theories/L_PolHull6.v
theories/W_HullOne.v
theories/P_HullOne.v
theories/M_MotionHeap.v
theories/S_MotionHeap.v
theories/P_MotionHeap.v
theories/M_Float.v
theories/S_Float.v
theories/L_Float.v
theories/L_FloatCmp.v
theories/L_FloatDiv.v
theories/L_FloatCg.v
theories/L_FloatGrid.v
theories/L_FloatLine.v
theories/L_FloatSeg.v
theories/L_FloatNorm.v
theories/P_Float.v
theories/P_FloatAffine.v
theories/P_FloatLine.v
theories/P_FloatSeg.v
theories/M_XrWrites.v
theories/P_XrWrites.v
theories/M_Plot.v
theories/P_Plot.v
theories/L_FloatRay.v
theories/P_FloatRay.v
theories/M_FloatEllipse.v
theories/L_FloatEllipse.v
theories/P_FloatEllipse.v
theories/P_Exclude.v
theories/P_FloatCone.v
theories/M_Timing.v
theories/P_Timing.v
theories/M_FloatMotion.v
theories/L_FloatMotion.v
theories/P_FloatMotion.v
theories/P_FloatWaypoints.v
theories/M_PlotWorld.v
theories/P_PlotWorld.v
theories/P_FloatPast.v
theories/P_FloatTriangle.v
theories/P_FloatPolygon.v
theories/M_FloatPolygon.v
theories/P_FloatCones.v
theories/M_FloatSinus.v
theories/P_FloatSinus.v
theories/P_CombPolygons.v
theories/M_FloatTriangle.v
theories/P_FloatEquilateral.v
theories/M_FloatDirection.v
theories/P_FloatDirection.v
theories/M_FloatNormal.v
theories/P_FloatNormal.v
theories/M_FloatDistance.v
theories/P_FloatDistance.v
theories/M_FloatChord.v
theories/L_FloatRel.v
theories/L_FloatChord.v
theories/P_FloatChord.v
theories/M_FloatBoundary.v
theories/P_FloatBoundary.v
theories/W_Cg.v
theories/W_Cone.v
theories/P_Cone.v
theories/P_Cg.v
