-Q theories Verif
theories/Exn.v
theories/PieModel.v
theories/Instances.v
theories/PieSpec.v
theories/PieLemmas.v
theories/PieLemmas2.v
theories/PieGridModel.v
theories/PieGridSpec.v
theories/PieGridLemmas.v
theories/PieGridLemmas2.v
theories/PieGridLemmas3.v
theories/PieKeep.v
theories/PieExact.v
theories/PieParams.v
theories/PieSession.v
theories/PieEnds.v
theories/PieRealSpec.v
theories/PieRealLemmas.v
theories/PieRealLemmas2.v
theories/PieRealGrid.v
theories/PieFinal.v
theories/PieProps.v
theories/GaussModel.v
theories/GaussSpec.v
theories/GaussLemmas.v
theories/GaussLemmas2.v
theories/GaussReal.v
theories/GaussProps.v
theories/NamesModel.v
theories/NamesSpec.v
theories/NamesLemmas.v
theories/NamesLemmas2.v
theories/NamesFinal.v
theories/NamesProps.v
theories/MinModel.v
theories/MinSpec.v
theories/MinLemmas.v
theories/MinLemmas2.v
theories/MinCases.v
theories/MinProps.v
theories/CountModel.v
theories/CountSpec.v
theories/CountLemmas.v
theories/CountLemmas2.v
theories/CountLemmas3.v
theories/CountLemmas4.v
theories/CountLemmas5.v
theories/CountLemmas6.v
theories/CountCases.v
theories/CountProps.v
theories/RefModel.v
theories/RefSpec.v
theories/RefLemmas.v
theories/RefLemmas2.v
theories/RefLemmas3.v
theories/RefLemmas4.v
theories/RefLemmas5.v
theories/RefLemmas6.v
theories/RefLemmas7.v
theories/RefLemmas8.v
theories/RefCases.v
theories/RefProps.v
theories/HpdModel.v
theories/HpdSpec.v
theories/HpdLemmas.v
theories/HpdLemmas2.v
theories/HpdLemmas3.v
theories/HpdLemmas4.v
theories/HpdLemmas5.v
theories/HpdCases.v
theories/HpdProps.v
theories/McModel.v
theories/McSpec.v
theories/McLemmas.v
theories/McLemmas2.v
theories/McLemmas3.v
theories/McLemmas4.v
theories/McLemmas5.v
theories/McLemmas6.v
theories/McLemmas7.v
theories/McLemmas8.v
theories/McLemmas9.v
theories/McLemmas10.v
theories/McLemmas11.v
theories/McCases.v
theories/McProps.v
theories/PwlModel.v
theories/PwlSpec.v
theories/PwlLemmas.v
theories/PwlLemmas2.v
theories/PwlLemmas3.v
theories/PwlLemmas4.v
theories/PwlLemmas5.v
theories/PwlLemmas6.v
theories/PwlCases.v
theories/PwlProps.v
theories/IoModel.v
theories/IoSpec.v
theories/IoLemmas.v
theories/IoLemmas2.v
theories/IoLemmas3.v
theories/IoLemmas4.v
theories/IoCases.v
theories/IoProps.v
theories/BaModel.v
theories/BaSpec.v
theories/BaLemmas.v
theories/BaLemmas2.v
theories/BaLemmas3.v
theories/BaLemmas4.v
theories/BaLemmas5.v
theories/BaLemmas6.v
theories/BaLemmas7.v
theories/BaCases.v
theories/BaProps.v
theories/ObsModel.v
theories/ObsSpec.v
theories/ObsLemmas.v
theories/ObsLemmas2.v
theories/ObsLemmas3.v
theories/ObsLemmas4.v
theories/ObsLemmas5.v
theories/ObsLemmas6.v
theories/ObsLemmas7.v
theories/ObsCases.v
theories/ObsProps.v
theories/CubTables.v
theories/CubModel.v
theories/CubSpec.v
theories/CubLemmas.v
theories/CubLemmas2.v
theories/CubLemmas3.v
theories/CubLemmas4.v
theories/CubLemmas5.v
theories/CubLemmas6.v
theories/CubCases.v
theories/CubProps.v
theories/AdModel.v
theories/AdSpec.v
theories/AdLemmas.v
theories/AdLemmas2.v
theories/AdLemmas3.v
theories/AdLemmas4.v
theories/AdLemmas5.v
theories/AdLemmas6.v
theories/AdCases.v
theories/AdProps.v
theories/SyModel.v
theories/SySpec.v
theories/SyLemmas.v
theories/SyLemmas2.v
theories/SyLemmas3.v
theories/SyLemmas4.v
theories/SyLemmas5.v
theories/SyLemmas6.v
theories/SyLemmas7.v
theories/SyLemmas8.v
theories/SyLemmas9.v
theories/SyLemmas10.v
theories/SyLemmas11.v
theories/SyLemmas12.v
theories/SyLemmas13.v
theories/SyCases.v
theories/SyProps.v
theories/MomModel.v
theories/MomSpec.v
theories/MomLemmas.v
theories/MomLemmas2.v
theories/MomLemmas3.v
theories/MomCases.v
theories/MomProps.v
theories/DcTables.v
theories/DcModel.v
theories/DcSpec.v
theories/DcLemmas.v
theories/DcLemmas2.v
theories/DcLemmas3.v
theories/DcLemmas4.v
theories/DcNear.v
theories/DcFixed.v
theories/DcFixed2.v
theories/DcLemmas5.v
theories/DcNodes.v
theories/DcLemmas6.v
theories/DcLemmas7.v
theories/DcLemmas8.v
theories/DcLemmas9.v
theories/DcLemmas10.v
theories/DcLemmas11.v
theories/DcLemmas12.v
theories/DcScale.v
theories/DcScale2.v
theories/DcScale3.v
theories/DcCases.v
theories/DcProps.v
theories/KmModel.v
theories/KmSpec.v
theories/KmLemmas.v
theories/KmLemmas2.v
theories/KmLemmas3.v
theories/KmLemmas4.v
theories/KmLemmas5.v
theories/KmLemmas6.v
theories/KmLemmas7.v
theories/KmLemmas8.v
theories/KmLemmas9.v
theories/KmCases.v
theories/KmLemmas10.v
theories/KmProps.v
theories/RgModel.v
theories/RgSpec.v
theories/RgLemmas.v
theories/RgLemmas2.v
theories/RgLemmas3.v
theories/RgLemmas4.v
theories/RgLemmas5.v
theories/RgLemmas6.v
theories/RgLemmas7.v
theories/RgLemmas8.v
theories/RgCases.v
theories/RgProps.v
theories/RgLemmas9.v
theories/RgLemmas10.v
theories/RoModel.v
theories/RoModel2.v
theories/RoModel3.v
theories/RoSpec.v
theories/RoSpec2.v
theories/RoLemmas.v
theories/RoLemmas2.v
theories/RoLemmas3.v
theories/RoLemmas4.v
theories/RoLemmas5.v
theories/RoLemmas6.v
theories/RoProps.v
theories/RoProps2.v
theories/RoProps3.v
