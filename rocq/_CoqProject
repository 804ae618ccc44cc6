-Q theories Verif
theories/Base_Float.v
theories/Base_Num.v
theories/Base_Order.v
theories/Base_Prelude.v
theories/Base_Repr.v
theories/Base_Str.v
theories/Base_Sum.v
theories/Base_SumR.v
theories/Base_Xreal.v
theories/Model_Camera.v
theories/Model_Data.v
theories/Model_Dataset.v
theories/Model_Digit.v
theories/Model_Docs.v
theories/Model_Emva.v
theories/Model_FFT.v
theories/Model_Figure.v
theories/Model_Generated.v
theories/Model_Hist.v
theories/Model_Images.v
theories/Model_Info.v
theories/Model_Jinja.v
theories/Model_Loader.v
theories/Model_NewReport.v
theories/Model_Optics.v
theories/Model_Parser.v
theories/Model_Path.v
theories/Model_Plot.v
theories/Model_Points.v
theories/Model_Print.v
theories/Model_Profile.v
theories/Model_Report.v
theories/Model_Results.v
theories/Model_Rounded.v
theories/Model_RoundedEmva.v
theories/Model_RoundedFigures.v
theories/Model_RoundedIndex.v
theories/Model_RoundedLinearity.v
theories/Model_RoundedLines.v
theories/Model_RoundedSpatial.v
theories/Model_Search.v
theories/Model_Sheet.v
theories/Model_Templates.v
theories/Model_Tile.v
theories/Model_Xml.v
theories/Proofs_Any.v
theories/Proofs_Any2.v
theories/Proofs_Any3.v
theories/Proofs_Any4.v
theories/Proofs_Camera.v
theories/Proofs_Camera2.v
theories/Proofs_Chance.v
theories/Proofs_Chance2.v
theories/Proofs_Chance3.v
theories/Proofs_Components.v
theories/Proofs_Components2.v
theories/Proofs_Components3.v
theories/Proofs_Components4.v
theories/Proofs_Components5.v
theories/Proofs_Components6.v
theories/Proofs_Data.v
theories/Proofs_Data2.v
theories/Proofs_Dataset.v
theories/Proofs_Dataset2.v
theories/Proofs_Dataset3.v
theories/Proofs_Dict.v
theories/Proofs_Digit.v
theories/Proofs_Emva.v
theories/Proofs_Emva2.v
theories/Proofs_Emva3.v
theories/Proofs_Emva4.v
theories/Proofs_Emva5.v
theories/Proofs_FFT.v
theories/Proofs_Figure.v
theories/Proofs_Figure2.v
theories/Proofs_Figures.v
theories/Proofs_Figures2.v
theories/Proofs_Figures3.v
theories/Proofs_Figures4.v
theories/Proofs_Fit.v
theories/Proofs_Float.v
theories/Proofs_Hist.v
theories/Proofs_Hist2.v
theories/Proofs_Hist3.v
theories/Proofs_Hist4.v
theories/Proofs_Hist5.v
theories/Proofs_Ideal.v
theories/Proofs_Images.v
theories/Proofs_Info.v
theories/Proofs_Info2.v
theories/Proofs_Latex.v
theories/Proofs_Line.v
theories/Proofs_Linear.v
theories/Proofs_Loader.v
theories/Proofs_Near.v
theories/Proofs_Near2.v
theories/Proofs_Near3.v
theories/Proofs_Near4.v
theories/Proofs_NewReport.v
theories/Proofs_NewReport2.v
theories/Proofs_Num.v
theories/Proofs_Optics.v
theories/Proofs_Optics2.v
theories/Proofs_Parser.v
theories/Proofs_Parser2.v
theories/Proofs_Path.v
theories/Proofs_Pattern.v
theories/Proofs_Pattern2.v
theories/Proofs_Pattern3.v
theories/Proofs_Pattern4.v
theories/Proofs_PatternFiles.v
theories/Proofs_PatternFloat.v
theories/Proofs_PatternFloat2.v
theories/Proofs_PatternFloat3.v
theories/Proofs_PatternRun.v
theories/Proofs_PatternRun2.v
theories/Proofs_Plot.v
theories/Proofs_Plot2.v
theories/Proofs_Plot3.v
theories/Proofs_Points.v
theories/Proofs_Points2.v
theories/Proofs_Points3.v
theories/Proofs_Print.v
theories/Proofs_Print2.v
theories/Proofs_Profile.v
theories/Proofs_Profile2.v
theories/Proofs_Qe.v
theories/Proofs_RDSNU.v
theories/Proofs_REmva.v
theories/Proofs_REmva2.v
theories/Proofs_REmva3.v
theories/Proofs_REmva4.v
theories/Proofs_RFigures.v
theories/Proofs_RFigures2.v
theories/Proofs_RFigures3.v
theories/Proofs_RFigures4.v
theories/Proofs_RLinearity.v
theories/Proofs_RLinearity2.v
theories/Proofs_RLinearity3.v
theories/Proofs_RLinearity4.v
theories/Proofs_RLinearity5.v
theories/Proofs_RLinearity6.v
theories/Proofs_RLinearity7.v
theories/Proofs_RLines.v
theories/Proofs_RLines2.v
theories/Proofs_RLines3.v
theories/Proofs_RLines4.v
theories/Proofs_RPRNU.v
theories/Proofs_RSpatial.v
theories/Proofs_RSpatial2.v
theories/Proofs_RSpatial3.v
theories/Proofs_RSpatial4.v
theories/Proofs_Report.v
theories/Proofs_Report2.v
theories/Proofs_Repr.v
theories/Proofs_Results.v
theories/Proofs_Results2.v
theories/Proofs_Results3.v
theories/Proofs_Results4.v
theories/Proofs_Round.v
theories/Proofs_Rounded.v
theories/Proofs_Rounded2.v
theories/Proofs_Rounded3.v
theories/Proofs_Rounded4.v
theories/Proofs_Rounded5.v
theories/Proofs_RoundedIndex.v
theories/Proofs_RoundedIndex2.v
theories/Proofs_RoundedIndex3.v
theories/Proofs_Run.v
theories/Proofs_Run2.v
theories/Proofs_Run3.v
theories/Proofs_Run4.v
theories/Proofs_Run5.v
theories/Proofs_Run6.v
theories/Proofs_Run7.v
theories/Proofs_Run8.v
theories/Proofs_Same.v
theories/Proofs_Search.v
theories/Proofs_Search2.v
theories/Proofs_Sheet.v
theories/Proofs_Sheet2.v
theories/Proofs_Sheet3.v
theories/Proofs_Sheet4.v
theories/Proofs_Sheet5.v
theories/Proofs_Sheet6.v
theories/Proofs_Sheet7.v
theories/Proofs_Sheet8.v
theories/Proofs_Sheet9.v
theories/Proofs_Str.v
theories/Proofs_Straight.v
theories/Proofs_Straight2.v
theories/Proofs_Straight3.v
theories/Proofs_Straight4.v
theories/Proofs_Tile.v
theories/Proofs_Turn.v
theories/Proofs_UnitText.v
theories/Proofs_Units.v
theories/Proofs_Units2.v
theories/Proofs_Units3.v
theories/Proofs_Units4.v
theories/Proofs_Units5.v
theories/Proofs_Units6.v
theories/Proofs_Whole.v
theories/Proofs_Whole2.v
theories/Proofs_Xml.v
theories/Proofs_Xml2.v
theories/Props_Any.v
theories/Props_Camera.v
theories/Props_Chance.v
theories/Props_Components.v
theories/Props_Data.v
theories/Props_Dataset.v
theories/Props_Digit.v
theories/Props_Emva.v
theories/Props_Figure.v
theories/Props_Figures.v
theories/Props_Generated.v
theories/Props_Hist.v
theories/Props_Ideal.v
theories/Props_Images.v
theories/Props_Info.v
theories/Props_Latex.v
theories/Props_Linear.v
theories/Props_Loader.v
theories/Props_Near.v
theories/Props_NewReport.v
theories/Props_Num.v
theories/Props_Optics.v
theories/Props_Parser.v
theories/Props_Path.v
theories/Props_Pattern.v
theories/Props_PatternFiles.v
theories/Props_PatternFloat.v
theories/Props_Plot.v
theories/Props_Points.v
theories/Props_Print.v
theories/Props_Profile.v
theories/Props_RandomRun.v
theories/Props_RandomRun2.v
theories/Props_Report.v
theories/Props_Results.v
theories/Props_Rounded.v
theories/Props_RoundedDSNU.v
theories/Props_RoundedEmva.v
theories/Props_RoundedFigures.v
theories/Props_RoundedIndex.v
theories/Props_RoundedLinearity.v
theories/Props_RoundedLinearity2.v
theories/Props_RoundedLines.v
theories/Props_RoundedSpatial.v
theories/Props_Search.v
theories/Props_Sheet.v
theories/Props_Straight.v
theories/Props_Tile.v
theories/Props_Turn.v
theories/Props_UnitText.v
theories/Props_Units.v
theories/Props_Whole.v
theories/Props_Xml.v
theories/Spec_Any.v
theories/Spec_Camera.v
theories/Spec_Chance.v
theories/Spec_Components.v
theories/Spec_Data.v
theories/Spec_Dataset.v
theories/Spec_Digit.v
theories/Spec_Emva.v
theories/Spec_FFT.v
theories/Spec_Figure.v
theories/Spec_Figures.v
theories/Spec_Generated.v
theories/Spec_Hist.v
theories/Spec_Ideal.v
theories/Spec_Images.v
theories/Spec_Info.v
theories/Spec_Latex.v
theories/Spec_Line.v
theories/Spec_Linear.v
theories/Spec_Loader.v
theories/Spec_Near.v
theories/Spec_NewReport.v
theories/Spec_Num.v
theories/Spec_Optics.v
theories/Spec_Optics2.v
theories/Spec_Parser.v
theories/Spec_Path.v
theories/Spec_Pattern.v
theories/Spec_PatternFiles.v
theories/Spec_PatternFloat.v
theories/Spec_Plot.v
theories/Spec_Points.v
theories/Spec_Print.v
theories/Spec_Profile.v
theories/Spec_RandomRun.v
theories/Spec_Report.v
theories/Spec_Results.v
theories/Spec_Rounded.v
theories/Spec_RoundedDSNU.v
theories/Spec_RoundedEmva.v
theories/Spec_RoundedFigures.v
theories/Spec_RoundedIndex.v
theories/Spec_RoundedLinearity.v
theories/Spec_RoundedLines.v
theories/Spec_RoundedSpatial.v
theories/Spec_Search.v
theories/Spec_Sheet.v
theories/Spec_Sheet2.v
theories/Spec_Straight.v
theories/Spec_Turn.v
theories/Spec_UnitText.v
theories/Spec_Units.v
theories/Spec_Whole.v
theories/Spec_Xml.v
