-Q theories Verif
theories/Base.v
theories/Types.v
theories/M_Angle.v
theories/M_Vector.v
theories/M_Line.v
theories/M_Ray.v
theories/M_Triangle.v
theories/M_Segment.v
theories/M_Triangle2.v
theories/M_Circle.v
theories/M_Sector.v
theories/M_Rect.v
theories/M_Polygon.v
theories/M_Hull.v
theories/M_Matrix.v
theories/M_Soccer.v
theories/M_Heap.v
theories/M_Obj.v
theories/Spec3.v
theories/NumR.v
theories/NumF.v
theories/R_Tac.v
theories/Spec.v
theories/Spec2.v
theories/Abs.v
theories/L_Angle.v
theories/P_Angle.v
theories/L_Trig.v
theories/P_Vector.v
theories/P_Line.v
theories/L_Seg.v
theories/P_Segment.v
theories/L_Float.v
theories/P_AngleF.v
theories/P_Ray.v
theories/P_SegmentF.v
theories/P_Triangle.v
theories/P_Circle.v
theories/P_Rect.v
theories/P_Sector.v
theories/P_Polygon.v
theories/P_Polygon2.v
theories/P_Polygon3.v
theories/P_Polygon4.v
theories/P_Hull.v
theories/P_Hull2.v
theories/P_Hull3.v
theories/P_Hull4.v
theories/P_Misc.v
theories/P_Matrix.v
theories/P_Soccer.v
theories/P_Soccer2.v
theories/P_Float.v
theories/P_Grid.v
theories/P_Grid2.v
theories/P_HullF.v
theories/P_GridArea.v
theories/P_Robust.v
theories/P_HullRobust.v
theories/P_Elem.v
theories/P_Obj.v
theories/P_Obj2.v
theories/P_Obj3.v
theories/P_Obj4.v
theories/P_MatProg.v
theories/P_Graham.v
theories/P_Ctor.v
theories/M_Text.v
theories/P_Text.v
theories/P_AngleF2.v
theories/P_VecF.v
theories/P_RectF.v
theories/P_GrahamF.v
theories/P_DirectF.v
theories/P_TrigF.v
theories/P_LineF.v
theories/P_SegF.v
theories/P_MatF.v
theories/P_SoccerF.v
theories/P_SegF2.v
theories/P_AngleF3.v
theories/P_QuantF.v
theories/P_QuadF.v
theories/P_CircF.v
theories/P_CircF2.v
theories/P_Obj5.v
theories/P_LenF.v
theories/P_PolyF.v
theories/P_BisF.v
theories/P_SectorF.v
theories/P_DistF.v
theories/P_CircumF.v
theories/P_Ctor2.v
theories/P_RectF2.v
theories/P_VecF2.v
theories/P_EpsF.v
theories/P_ProjF.v
theories/P_RayF.v
theories/P_MeasF.v
theories/P_IncF.v
theories/P_DirF.v
theories/P_AngleF4.v
theories/P_CutF.v
theories/P_TriF.v
theories/P_InvF.v
theories/P_CircF3.v
theories/P_SafeF.v
theories/P_RectF3.v
theories/P_GrahamSafe.v
theories/P_SegF3.v
theories/P_CutRayF.v
theories/P_ClipF.v
theories/P_RangeF.v
theories/P_SafeSoccer.v
theories/P_SeenF.v
theories/P_SeriesF.v
theories/P_RestF.v
theories/P_TrackF.v
theories/P_MoveF.v
theories/M_Obj2.v
theories/P_Obj6.v
theories/M_Obj3.v
theories/P_Obj7.v
theories/M_Fail.v
theories/P_Fail.v
theories/P_Fail2.v
theories/P_Fail3.v
theories/NumP.v
theories/P_Int.v
theories/P_Int2.v
theories/P_Int3.v
theories/P_RangeF2.v
theories/P_Fail4.v
theories/P_PowF.v
theories/M_PolyF.v
theories/P_NaN.v
theories/P_NaNHull.v
theories/P_UnitF.v
theories/P_UnitF2.v
theories/P_MirrorF.v
theories/P_SwapF.v
theories/P_MirrorF2.v
theories/P_TurnF.v
theories/P_MirrorF3.v
