-Q theories Verif
theories/Base.v
theories/BaseProofs.v
theories/ComposeModel.v
theories/ComposeSpec.v
theories/ComposeProofs.v
theories/Props_Compose.v
theories/GeomModel.v
theories/GeomSpec.v
theories/GeomProofs.v
theories/Props_Geom.v
theories/MapModel.v
theories/MapProofs.v
theories/Props_Map.v
theories/UnionFindModel.v
theories/UnionFindSpec.v
theories/UnionFindProofs.v
theories/Props_UnionFind.v
theories/RegionModel.v
theories/RegionSpec.v
theories/RegionProofs.v
theories/Props_Region.v
theories/IntegralModel.v
theories/IntegralSpec.v
theories/IntegralProofs.v
theories/Props_Integral.v
theories/StatsModel.v
theories/StatsSpec.v
theories/StatsProofs.v
theories/ContrastModel.v
theories/ContrastSpec.v
theories/RasterProofs.v
theories/ContrastProofs.v
theories/Props_Stats.v
theories/Props_Contrast.v
theories/DistanceModel.v
theories/DistanceSpec.v
theories/DistanceProofs.v
theories/Props_Distance.v
theories/MaskModel.v
theories/MaskSpec.v
theories/MaskProofs.v
theories/Props_Mask.v
theories/FilterModel.v
theories/FilterSpec.v
theories/FilterProofs.v
theories/Props_Filter.v
theories/MedianModel.v
theories/MedianSpec.v
theories/MedianProofs.v
theories/Props_Median.v
theories/Float.v
theories/FloatProofs.v
theories/LineModel.v
theories/LineSpec.v
theories/LineProofs.v
theories/Props_Line.v
theories/ShapeModel.v
theories/ShapeSpec.v
theories/ShapeProofs.v
theories/Props_Shape.v
theories/FloodModel.v
theories/FloodSpec.v
theories/FloodProofs.v
theories/Props_Flood.v
theories/PolygonModel.v
theories/PolygonSpec.v
theories/FloatErr.v
theories/PolygonProofs.v
theories/Props_Polygon.v
theories/SuppressModel.v
theories/SuppressSpec.v
theories/SuppressProofs.v
theories/MaximaProofs.v
theories/Props_Suppress.v
theories/GradientModel.v
theories/GradientSpec.v
theories/GradientProofs.v
theories/Props_Gradient.v
theories/SeamModel.v
theories/SeamSpec.v
theories/SeamProofs.v
theories/SeamCarveProofs.v
theories/SeamDrawProofs.v
theories/Props_Seam.v
theories/ContourModel.v
theories/ContourSpec.v
theories/ContourProofs.v
theories/ContourTrace.v
theories/ContourMain.v
theories/Props_Contour.v
theories/GeometryModel.v
theories/GeometrySpec.v
theories/GeometryProofs.v
theories/HullProofs.v
theories/AreaProofs.v
theories/ApproxSpec.v
theories/ApproxProofs.v
theories/Props_Geometry.v
theories/LbpModel.v
theories/LbpSpec.v
theories/Props_Lbp.v
theories/CornerModel.v
theories/CornerSpec.v
theories/CornerProofs.v
theories/Props_Corner.v
theories/TemplateModel.v
theories/TemplateSpec.v
theories/TemplateProofs.v
theories/Props_Template.v
theories/BriefModel.v
theories/BriefSpec.v
theories/BriefProofs.v
theories/BriefMain.v
theories/BriefMatch.v
theories/Props_Brief.v
theories/ClampModel.v
theories/Props_Clamp.v
theories/EdgesModel.v
theories/EdgesSpec.v
theories/EdgesProofs.v
theories/Props_Edges.v
theories/HogModel.v
theories/HogSpec.v
theories/HogProofs.v
theories/Props_Hog.v
theories/HaarModel.v
theories/HaarSpec.v
theories/HaarProofs.v
theories/Props_Haar.v
theories/UtilsModel.v
theories/UtilsSpec.v
theories/UtilsProofs.v
theories/Props_Utils.v
theories/SignalsModel.v
theories/SignalsSpec.v
theories/SignalsProofs.v
theories/Props_Signals.v
theories/NoiseModel.v
theories/NoiseSpec.v
theories/Props_Noise.v
theories/BilateralModel.v
theories/BilateralSpec.v
theories/BilateralProofs.v
theories/Props_Bilateral.v
theories/FContrastModel.v
theories/FContrastSpec.v
theories/FContrastProofs.v
theories/MatchProofs.v
theories/Props_FContrast.v
theories/OtsuProofs.v
theories/Props_Otsu.v
theories/WuModel.v
theories/WuSpec.v
theories/WuProofs.v
theories/Props_Wu.v
theories/ProjModel.v
theories/ProjSpec.v
theories/ProjProofs.v
theories/Props_Proj.v
theories/WarpModel.v
theories/WarpSpec.v
theories/WarpProofs.v
theories/WarpProofs2.v
theories/WarpProofs3.v
theories/WarpProofs4.v
theories/Props_Warp.v
theories/EuclidModel.v
theories/EuclidSpec.v
theories/EuclidProofs.v
theories/EuclidProofs2.v
theories/Props_Euclid.v
theories/HoughModel.v
theories/HoughSpec.v
theories/HoughLines.v
theories/HoughProofs.v
theories/HoughProofs2.v
theories/Props_Hough.v
theories/SharpenModel.v
theories/SharpenSpec.v
theories/SharpenProofs.v
theories/Props_Sharpen.v
theories/OfastModel.v
theories/OfastSpec.v
theories/OfastProofs.v
theories/OfastProofs2.v
theories/Props_Ofast.v
theories/KapurModel.v
theories/KapurSpec.v
theories/KapurProofs.v
theories/Props_Kapur.v
theories/GaussModel.v
theories/GaussSpec.v
theories/GaussProofs.v
theories/GaussProofs2.v
theories/Props_Gauss.v
theories/Props_GaussSharpen.v
theories/BezierModel.v
theories/BezierSpec.v
theories/BezierProofs.v
theories/Props_Bezier.v
theories/TextModel.v
theories/TextSpec.v
theories/TextProofs.v
theories/Props_Text.v
theories/EllipseModel.v
theories/EllipseSpec.v
theories/EllipseProofs.v
theories/EllipseProofs2.v
theories/EllipseProofs3.v
theories/Props_Ellipse.v
theories/AAPolygonModel.v
theories/AAPolygonSpec.v
theories/Props_AAPolygon.v
theories/HogCellsModel.v
theories/HogCellsSpec.v
theories/HogCellsProofs.v
theories/HogCellsProofs2.v
theories/HogCellsProofs3.v
theories/HogCellsProofs4.v
theories/Props_HogCells.v
theories/CannyModel.v
theories/CannySpec.v
theories/CannyProofs.v
theories/Props_Canny.v
theories/RotateSpec.v
theories/Props_Rotate.v
theories/PhashModel.v
theories/PhashSpec.v
theories/PhashProofs.v
theories/Props_Phash.v
theories/MinRectModel.v
theories/MinRectSpec.v
theories/MinRectGeom.v
theories/MinRectNum.v
theories/MinRectProofs.v
theories/HullLineSpec.v
theories/HullLine.v
theories/Props_MinRect.v
theories/KapurF64.v
theories/RenderModel.v
theories/RenderSpec.v
theories/RenderProofs.v
theories/Props_Render.v
theories/LineFloatSpec.v
theories/LineFloat.v
theories/Props_LineFloat.v
theories/RaySpec.v
theories/RayProofs.v
theories/Props_Ray.v
theories/UnitSpec.v
theories/UnitProofs.v
theories/Props_Unit.v
theories/BrightSpec.v
theories/BrightProofs.v
theories/Props_Bright.v
theories/SymSpec.v
theories/SymProofs.v
theories/SymProofs2.v
theories/Props_Sym.v
theories/Props_Sym2.v
theories/Props_Find.v
theories/Props_Tile.v
theories/Props_Order.v
theories/Props_Settle.v
theories/Props_Paint.v
theories/Props_Metric.v
theories/Props_FillRegion.v
theories/Props_Shuffle.v
theories/Props_Chain.v
