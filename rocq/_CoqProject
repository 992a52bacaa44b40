-Q theories Verif
theories/Base.v
theories/SearchModel.v
theories/SearchSpec.v
theories/SearchProofs.v
theories/SearchProofs2.v
theories/SearchProofs3.v
theories/SearchProofs4.v
theories/SearchProofs5.v
theories/Prop_Search.v
theories/Num.v
theories/MomentsModel.v
theories/MomentsSpec.v
theories/MomentsProofs.v
theories/MomentsProofs2.v
theories/SummaryModel.v
theories/SummarySpec.v
theories/SummaryProofs.v
theories/Prop_Moments.v
theories/Prop_Summary.v
theories/StrModel.v
theories/StrProofs.v
theories/DateModel.v
theories/DateProofs.v
theories/FreqModel.v
theories/FreqSpec.v
theories/FreqProofs.v
theories/FreqProofs2.v
theories/FreqProofs3.v
theories/FreqProofs4.v
theories/Prop_Freq.v
theories/Prop_Helpers.v
theories/ArrModel.v
theories/ArrSpec.v
theories/ArrProofs.v
theories/ArrProofs2.v
theories/Prop_Arr.v
theories/VarModel.v
theories/VarSpec.v
theories/VarProofs.v
theories/VarProofs2.v
theories/VarProofs3.v
theories/VarProofs4.v
theories/VarProofs5.v
theories/VarProofs6.v
theories/VarTextModel.v
theories/VarTextSpec.v
theories/VarTextProofs.v
theories/Prop_Var.v
theories/SortModel.v
theories/SortSpec.v
theories/SortProofs.v
theories/Prop_Sort.v
theories/ClusterModel.v
theories/ClusterSpec.v
theories/ClusterProofs.v
theories/ClusterProofs2.v
theories/ClusterProofs3.v
theories/ClusterProofs4.v
theories/ClusterProofs5.v
theories/ClusterProofs6.v
theories/Prop_Cluster.v
theories/MatModel.v
theories/MatSpec.v
theories/MatProofs.v
theories/MatProofs2.v
theories/MatProofs3.v
theories/MatProofs4.v
theories/MatProofs5.v
theories/MatProofs6.v
theories/MatDotModel.v
theories/MatDotProofs.v
theories/Prop_Mat.v
theories/Prop_MatDot.v
theories/DataModel.v
theories/DataSpec.v
theories/DataProofs.v
theories/DataProofs2.v
theories/DataProofs3.v
theories/Prop_Data.v
theories/SplitModel.v
theories/SplitSpec.v
theories/SplitProofs.v
theories/SplitProofs2.v
theories/SplitProofs3.v
theories/SplitProofs4.v
theories/SplitProofs5.v
theories/SplitProofs6.v
theories/Prop_Split.v
theories/RocModel.v
theories/RocSpec.v
theories/RocProofs.v
theories/RocProofs2.v
theories/RocProofs3.v
theories/RocProofs4.v
theories/Prop_Roc.v
theories/CostModel.v
theories/CostSpec.v
theories/CostProofs.v
theories/Prop_Cost.v
theories/NamesModel.v
theories/NamesSpec.v
theories/NamesProofs.v
theories/Prop_Names.v
theories/WeightModel.v
theories/WeightProofs.v
theories/Prop_Weight.v
theories/PolyModel.v
theories/PolySpec.v
theories/PolyProofs.v
theories/PolyProofs2.v
theories/MPolyModel.v
theories/MPolySpec.v
theories/MPolyProofs.v
theories/MPolyProofs2.v
theories/MPolyProofs3.v
theories/Prop_Poly.v
theories/VarmaModel.v
theories/VarmaSpec.v
theories/VarmaProofs.v
theories/VarmaProofs2.v
theories/VarmaProofs3.v
theories/VarmaProofs4.v
theories/VarmaProofs5.v
theories/DescModel.v
theories/DescSpec.v
theories/DescProofs.v
theories/DescProofs2.v
theories/Prop_Desc.v
theories/DescRealModel.v
theories/Prop_DescReal.v
theories/HistModel.v
theories/HistSpec.v
theories/HistProofs.v
theories/HistProofs2.v
theories/Prop_Hist.v
theories/ForecastModel.v
theories/ForecastSpec.v
theories/ForecastProofs.v
theories/Prop_Forecast.v
theories/Prop_Varma.v
theories/StatModel.v
theories/StatSpec.v
theories/StatProofs.v
theories/LsProofs.v
theories/OlsProofs.v
theories/Prop_Stat.v
theories/OptModel.v
theories/OptSpec.v
theories/OptProofs.v
theories/OptProofs2.v
theories/OptProofs3.v
theories/OptProofs4.v
theories/OptProofs5.v
theories/Prop_Opt.v
theories/ColModel.v
theories/ColSpec.v
theories/ColProofs.v
theories/ColProofs2.v
theories/ColProofs3.v
theories/Prop_Col.v
theories/CorModel.v
theories/CorRealModel.v
theories/CorSpec.v
theories/CorProofs.v
theories/CorProofs2.v
theories/CorProofs3.v
theories/Prop_Cor.v
theories/CorRealSpec.v
theories/CorRealProofs.v
theories/CorRealProofs2.v
theories/CorRealProofs3.v
theories/CorRealProofs4.v
theories/Prop_CorReal.v
theories/DistModel.v
theories/DistSpec.v
theories/DistProofs.v
theories/DistProofs2.v
theories/DistProofs3.v
theories/DistProofs4.v
theories/Prop_Dist.v
theories/SurModel.v
theories/SurSpec.v
theories/SurProofs.v
theories/SurProofs2.v
theories/SurProofs3.v
theories/SurProofs4.v
theories/SurProofs5.v
theories/SurProofs6.v
theories/SurProofs7.v
theories/Prop_Sur.v
theories/SurProofs8.v
theories/SurProofs9.v
theories/Prop_SurProj.v
theories/SurFitModel.v
theories/SurFitSpec.v
theories/SurFitProofs.v
theories/Prop_SurFit.v
theories/SurLikModel.v
theories/SurLikSpec.v
theories/SurLikProofs.v
theories/Prop_SurLikReal.v
theories/SurSimModel.v
theories/SurSimSpec.v
theories/SurSimProofs.v
theories/Prop_SurSim.v
theories/VarmaSimModel.v
theories/VarmaSimSpec.v
theories/VarmaSimProofs.v
theories/VarmaSimProofs2.v
theories/Prop_VarmaSim.v
theories/DcModel.v
theories/DcSpec.v
theories/DcProofs.v
theories/DcProofs2.v
theories/DcProofs3.v
theories/DcProofs4.v
theories/DcNormal.v
theories/Prop_DcReal.v
theories/DcCalcModel.v
theories/DcCalcSpec.v
theories/DcCalcProofs.v
theories/Prop_DcCalc.v
theories/DcExtModel.v
theories/DcExtSpec.v
theories/DcExtProofs.v
theories/Prop_DcExt.v
theories/DcSimModel.v
theories/DcSimSpec.v
theories/DcSimProofs.v
theories/Prop_DcSim.v
theories/PcaModel.v
theories/PcaSpec.v
theories/PcaProofs.v
theories/PcaProofs2.v
theories/Prop_StdzReal.v
theories/Prop_PcaReal.v
theories/Prop_PcaCountReal.v
theories/RegModel.v
theories/RegSpec.v
theories/RegProofs.v
theories/RegProofs2.v
theories/Prop_RegSearch.v
theories/Prop_SurSearch.v
theories/Prop_SearchOptions.v
theories/SurExtModel.v
theories/Prop_SurExt.v
theories/DcSearchModel.v
theories/Prop_DcSearch.v
theories/VarmaSearchModel.v
theories/Prop_VarmaSearch.v
theories/ArmaModel.v
theories/ArmaSpec.v
theories/ArmaProofs.v
theories/ArmaProofs2.v
theories/ArmaProofs3.v
theories/ArmaProofs4.v
theories/ArmaProofs5.v
theories/ArmaProofs6.v
theories/Prop_Arma.v
theories/UdModel.v
theories/UdSpec.v
theories/UdProofs.v
theories/UdProofs2.v
theories/UdProofs3.v
theories/Prop_UdMoments.v
theories/Prop_UdCdf.v
theories/UdSpec2.v
theories/UdProofs4.v
theories/UdProofs5.v
theories/UdProofs6.v
theories/UdProofs7.v
theories/UdProofs8.v
theories/Prop_UdCont.v
theories/UdProofs9.v
theories/Prop_UdQuant.v
theories/Prop_UdLog.v
theories/UdSpec3.v
theories/Prop_UdMedian.v
theories/Prop_UdMode.v
theories/Prop_UdDisQuant.v
theories/EmpModel.v
theories/EmpSpec.v
theories/EmpProofs.v
theories/Prop_Emp.v
theories/MixModel.v
theories/MixSpec.v
theories/MixProofs.v
theories/MixProofs2.v
theories/Prop_Mix.v
theories/DerModel.v
theories/DerSpec.v
theories/DerProofs.v
theories/DerProofs2.v
theories/DerProofs3.v
theories/DerProofs4.v
theories/DerProofs5.v
theories/Prop_Der.v
theories/MqModel.v
theories/MqSpec.v
theories/MqProofs.v
theories/MqProofs2.v
theories/MqProofs3.v
theories/MqProofs4.v
theories/Prop_Mq.v
theories/GldModel.v
theories/GldSpec.v
theories/GldProofs.v
theories/GldProofs2.v
theories/GldProofs3.v
theories/GldProofs4.v
theories/GldProofs5.v
theories/GldProofs6.v
theories/Prop_Gld.v
