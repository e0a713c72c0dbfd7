-Q theories Verif
theories/Base.v
theories/Loops.v
theories/M_Extent.v
theories/P_Extent.v
theories/Spec_Extent.v
theories/T_Extent.v
theories/M_Domain2D.v
theories/Spec_Domain2D.v
theories/P_Domain2D.v
theories/T_Domain2D.v
theories/M_ScatterExt.v
theories/P_ScatterExt.v
theories/T_ScatterExt.v
theories/M_Hyperslab.v
theories/Spec_Hyperslab.v
theories/Shape.v
theories/T_Hyperslab.v
theories/M_Combine.v
theories/Spec_Combine.v
theories/P_Assemble.v
theories/P_Combine.v
theories/Spec_CombineSet.v
theories/P_CombineSet.v
theories/P_CombineRun.v
theories/P_CombineMain.v
theories/Spec_CombineGap.v
theories/P_CombineGap.v
theories/T_Combine.v
theories/M_Scatter.v
theories/Spec_Scatter.v
theories/P_Scatter.v
theories/P_ScatterMain.v
theories/T_Scatter.v
theories/Spec_CombineErr.v
theories/P_CombineErr.v
theories/P_CombineMiss.v
theories/T_CombineErr.v
theories/Str.v
theories/Lst.v
theories/M_StrList.v
theories/T_StrList.v
theories/M_ScatterOpt.v
theories/T_ScatterOpt.v
theories/M_ScatterName.v
theories/T_ScatterName.v
theories/M_Compress.v
theories/Spec_Compress.v
theories/P_Compress.v
theories/T_Compress.v
theories/M_Ncc.v
theories/Spec_Ncc.v
theories/P_Ncc.v
theories/P_Ncc2.v
theories/P_Ncc3.v
theories/T_Ncc.v
theories/Grid2.v
theories/M_CheckMask.v
theories/Spec_CheckMask.v
theories/P_CheckMask.v
theories/P_CheckMask2.v
theories/T_CheckMask.v
theories/M_Clip.v
theories/P_Clip.v
theories/Spec_Clip.v
theories/P_ClipR.v
theories/T_Clip.v
theories/M_Xgrid.v
theories/P_Xgrid.v
theories/Spec_Xgrid.v
theories/T_Xgrid.v
theories/Vec.v
theories/M_Interp.v
theories/Spec_Interp.v
theories/P_Interp.v
theories/P_Interp2.v
theories/P_Spline.v
theories/T_Interp.v
theories/M_GridBound.v
theories/P_GridBound.v
theories/Spec_GridBound.v
theories/P_GridBound2.v
theories/T_GridBound.v
theories/M_Contact.v
theories/Spec_Contact.v
theories/P_Contact.v
theories/P_Contact2.v
theories/T_Contact.v
theories/M_Supergrid.v
theories/Spec_Supergrid.v
theories/P_Supergrid.v
theories/T_Supergrid.v
theories/M_AlignContact.v
theories/Spec_AlignContact.v
theories/P_AlignContact.v
theories/T_AlignContact.v
theories/M_Runoff.v
theories/Spec_Runoff.v
theories/P_Runoff.v
theories/T_Runoff.v
theories/M_QsortIndex.v
theories/Spec_Sort.v
theories/P_QsortIndex.v
theories/T_QsortIndex.v
theories/M_River.v
theories/Spec_River.v
theories/Tiles.v
theories/P_Halo.v
theories/T_Halo.v
theories/P_Tocell.v
theories/T_Tocell.v
theories/P_SortBasin.v
theories/T_SortBasin.v
theories/P_Network.v
theories/P_RiverData.v
theories/P_Reciprocal.v
theories/P_RiverArea.v
theories/T_River.v
theories/M_TimeAvg.v
theories/Spec_TimeAvg.v
theories/P_TimeAvg.v
theories/T_TimeAvg.v
theories/M_Restarts.v
theories/T_Restarts.v
theories/M_Iceberg.v
theories/T_Iceberg.v
theories/M_NcExists.v
theories/T_NcExists.v
theories/M_LandDomain.v
theories/Spec_LandDomain.v
theories/P_LandDomain.v
theories/T_LandDomain.v
theories/M_Longitude.v
theories/Spec_Longitude.v
theories/P_Longitude.v
theories/T_Longitude.v
theories/M_Matrix.v
theories/Spec_Matrix.v
theories/P_Matrix.v
theories/T_Matrix.v
theories/M_Fregrid.v
theories/Spec_Fregrid.v
theories/P_Fregrid.v
theories/P_Fregrid2.v
theories/T_Fregrid.v
theories/P_Mono.v
theories/T_Mono.v
theories/M_Remap.v
theories/Spec_Remap.v
theories/P_Remap.v
theories/T_Remap.v
theories/M_Vert.v
theories/Spec_Vert.v
theories/P_Vert.v
theories/T_Vert.v
theories/M_Extrap.v
theories/Spec_Extrap.v
theories/P_Extrap.v
theories/P_Extrap2.v
theories/T_Extrap.v
theories/M_Vector.v
theories/Spec_Vector.v
theories/P_Vector.v
theories/P_Vector2.v
theories/P_Vector3.v
theories/T_Vector.v
theories/M_Mhalo.v
theories/Spec_Mhalo.v
theories/P_Mhalo.v
theories/P_Mhalo2.v
theories/T_Mhalo.v
theories/M_Topog.v
theories/Spec_Topog.v
theories/P_Topog.v
theories/P_Topog2.v
theories/P_Topog3.v
theories/P_Topog4.v
theories/P_Topog5.v
theories/P_Topog6.v
theories/T_Topog.v
theories/M_RemapLand.v
theories/Spec_RemapLand.v
theories/P_RemapLand.v
theories/P_RemapLand2.v
theories/P_RemapLand3.v
theories/P_RemapLand4.v
theories/P_RemapLand5.v
theories/P_RemapLand6.v
theories/P_RemapLand7.v
theories/P_RemapLand8.v
theories/T_RemapLand.v
theories/M_Coupler.v
theories/Spec_Coupler.v
theories/P_Coupler.v
theories/P_Coupler2.v
theories/P_Coupler3.v
theories/P_Coupler4.v
theories/P_Coupler5.v
theories/P_Coupler6.v
theories/P_Coupler7.v
theories/P_Coupler8.v
theories/T_Coupler.v
theories/M_Plevel.v
theories/Spec_Plevel.v
theories/P_Plevel.v
theories/P_Plevel2.v
theories/P_Plevel3.v
theories/P_Plevel4.v
theories/P_Plevel5.v
theories/P_Plevel6.v
theories/T_Plevel.v
theories/M_Hgrid.v
theories/Spec_Hgrid.v
theories/P_Hgrid.v
theories/T_Hgrid.v
theories/P_Tripolar.v
theories/P_Tripolar2.v
theories/P_Tripolar3.v
theories/P_Tripolar4.v
theories/T_Tripolar.v
theories/M_Cubic.v
theories/Spec_Cubic.v
theories/P_Cubic.v
theories/P_Cubic2.v
theories/P_Cubic3.v
theories/T_Cubic.v
theories/Spec_Gnomonic.v
theories/M_Gnomonic.v
theories/P_Gnomonic.v
theories/P_Gnomonic2.v
theories/P_Gnomonic3.v
theories/P_Gnomonic4.v
theories/P_Gnomonic5.v
theories/P_Gnomonic6.v
theories/T_Gnomonic.v
theories/Spec_Schmidt.v
theories/M_Schmidt.v
theories/P_Schmidt.v
theories/T_Schmidt.v
theories/Spec_Bilinear.v
theories/M_Bilinear.v
theories/P_Bilinear.v
theories/P_Bilinear2.v
theories/T_Bilinear.v
theories/P_Coarsen.v
theories/T_Coarsen.v
theories/Spec_Nest.v
theories/M_Nest.v
theories/P_Nest.v
theories/T_Nest.v
theories/M_GridHalo.v
theories/Spec_GridHalo.v
theories/P_GridHalo.v
theories/T_GridHalo.v
theories/M_LandMask.v
theories/Spec_LandMask.v
theories/P_LandMask.v
theories/P_LandMask2.v
theories/T_LandMask.v
theories/M_LandArea.v
theories/Spec_LandArea.v
theories/T_LandArea.v
theories/M_Boundary.v
theories/Spec_Boundary.v
theories/T_Boundary.v
