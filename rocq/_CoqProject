-Q theories Verif

theories/Base.v
theories/Utf8.v
theories/Text.v
theories/Card.v
theories/Reader.v
theories/Header.v
theories/Xtension.v
theories/Fits.v
theories/Bytes.v
theories/ImageIt.v
theories/BinTable.v
theories/Rice.v
theories/Float.v
theories/Tile.v
theories/Async.v
theories/SpecUtf8.v
theories/SpecCard.v
theories/TextLemmas.v
theories/Utf8Proofs.v
theories/CardProofs.v
theories/CardProofs2.v
theories/CardProps.v
theories/SpecHeader.v
theories/HeaderProofs.v
theories/HeaderProofs2.v
theories/HeaderProps.v
theories/SpecXt.v
theories/XtProofs.v
theories/XtProofs2.v
theories/XtProofs3.v
theories/SpecFits.v
theories/FitsProofs.v
theories/FitsProofs2.v
theories/FitsProofs3.v
theories/FitsProofs4.v
theories/SpecImage.v
theories/BytesProofs.v
theories/ImageProofs.v
theories/SpecBin.v
theories/BinProofs.v
theories/BinProofs2.v
theories/BinProofs3.v
theories/SpecRice.v
theories/RiceProofs.v
theories/RiceProofs2.v
theories/RiceProofs3.v
theories/RiceProofs4.v
theories/RiceProofs5.v
theories/RiceProofs6.v
theories/SpecTile.v
theories/TileProofs.v
theories/TileProofs2.v
theories/TileProofs3.v
theories/TileProofs4.v
theories/TileProofs5.v
theories/TileProofs6.v
theories/SpecTileBreak.v
theories/TileProofs7.v
theories/SpecAsync.v
theories/AsyncProofs.v
theories/AsyncProofs2.v
theories/AsyncProofs3.v
theories/AsyncProofs4.v
theories/AsyncProofs5.v
theories/ImageInt.v
theories/SpecImageInt.v
theories/ImageIntProofs.v
theories/ImageIntProofs2.v
theories/ImageIntProofs3.v
theories/ImageIntProofs4.v
theories/ImageIntProofs5.v
theories/Prop_ImageInt.v
theories/Gz.v
theories/SpecGz.v
theories/GzProofs.v
theories/Prop_Gz.v
theories/Prop_Card.v
theories/SpecText.v
theories/CardProofs3.v
theories/Prop_Text.v
theories/Prop_Header.v
theories/Prop_Xt.v
theories/Prop_Fits.v
theories/Prop_Image.v
theories/Prop_Bin.v
theories/Prop_Rice.v
theories/Prop_Tile.v
theories/Prop_TileBreak.v
theories/Prop_Async.v
theories/SpecReal.v
theories/FloatProofs.v
theories/FloatProofs2.v
theories/FloatProofs3.v
theories/FloatProofs4.v
theories/Prop_Float.v
theories/Serde.v
theories/SpecSerde.v
theories/SerdeProofs.v
theories/Prop_Serde.v
theories/Cli.v
theories/SpecCli.v
theories/CliProofs.v
theories/Prop_Cli.v
theories/ModelTests.v
theories/SpecWrite.v
theories/WriteProofs.v
theories/WriteProofs2.v
theories/Prop_Write.v
theories/SpecWriteTable.v
theories/WriteProofs3.v
theories/WriteProofs4.v
theories/WriteProofs5.v
theories/Prop_WriteTable.v
theories/SpecWriteTile.v
theories/WriteProofs6.v
theories/WriteProofs7.v
theories/WriteFloatProofs.v
theories/WriteProofs8.v
theories/WriteProofs9.v
theories/Prop_WriteTile.v
theories/WriteFloatProofs2.v
theories/Prop_WriteFloat.v
theories/Prop_WriteDither.v
theories/AsyncProofs6.v
theories/Prop_WriteAsync.v
theories/SpecWriteAscii.v
theories/WriteProofs10.v
theories/Prop_WriteAscii.v
theories/SpecWriteShow.v
theories/WriteShowProofs.v
theories/WriteShowProofs2.v
theories/Prop_WriteShow.v
theories/SpecBinSafe.v
theories/BinProofs4.v
theories/Prop_BinSafe.v
theories/SpecBinCut.v
theories/BinProofs5.v
theories/Prop_BinCut.v
theories/SpecNumber.v
theories/NumberProofs.v
theories/Prop_Number.v
theories/SpecTileSafe.v
theories/TileProofs8.v
theories/Prop_TileSafe.v
theories/SpecBinArrays.v
theories/BinProofs6.v
theories/Prop_BinArrays.v
theories/SpecBinSeek.v
theories/BinProofs7.v
theories/Prop_BinSeek.v
theories/SpecBinTwice.v
theories/BinProofs8.v
theories/Prop_BinTwice.v
theories/SpecBinLate.v
theories/BinProofs9.v
theories/Prop_BinLate.v
theories/SpecImageCut.v
theories/ImageCutProofs.v
theories/Prop_ImageCut.v
theories/SpecPanic.v
theories/PanicProofs.v
theories/PanicProofs2.v
theories/Prop_Panic.v
theories/Device.v
theories/SpecDevice.v
theories/DeviceProofs.v
theories/DeviceProofs2.v
theories/Prop_Device.v
theories/AsyncDevice.v
theories/SpecAsyncDevice.v
theories/AsyncDeviceProofs.v
theories/Prop_AsyncDevice.v
theories/DeviceTable.v
theories/SpecDeviceTable.v
theories/DeviceTableProofs.v
theories/Prop_DeviceTable.v
theories/SpecAsyncLoss.v
theories/AsyncLossProofs.v
theories/Prop_AsyncLoss.v
theories/SpecAsyncPanic.v
theories/AsyncPanicProofs.v
theories/Prop_AsyncPanic.v
theories/DeviceTile.v
theories/SpecDeviceTile.v
theories/DeviceTileProofs.v
theories/DeviceTileProofs2.v
theories/Prop_DeviceTile.v
theories/DeviceImage.v
theories/SpecDeviceImage.v
theories/DeviceImageProofs.v
theories/DeviceImageProofs2.v
theories/Prop_DeviceImage.v
theories/ImageSafeProofs.v
theories/Prop_ImageSafe.v
theories/DeviceCli.v
theories/SpecCliAny.v
theories/CliProofs2.v
theories/Prop_CliAny.v
theories/SpecDrift.v
theories/DriftProofs.v
theories/TileDriftProofs.v
theories/ImageDriftProofs.v
theories/Prop_Drift.v
theories/SpecAfter.v
theories/AfterProofs.v
theories/Prop_After.v
theories/DeviceGz.v
theories/SpecDeviceGz.v
theories/DeviceGzProofs.v
theories/Prop_DeviceGz.v
theories/DeviceAscii.v
theories/SpecDeviceAscii.v
theories/DeviceAsciiProofs.v
theories/Prop_DeviceAscii.v
theories/SpecAgain.v
theories/AgainProofs.v
theories/Prop_Again.v
theories/Direct.v
theories/SpecDirect.v
theories/DirectProofs.v
theories/Prop_Direct.v
theories/SpecSplice.v
theories/SpliceProofs.v
theories/Prop_Splice.v
theories/SpecBehind.v
theories/BehindProofs.v
theories/BehindProofs2.v
theories/BehindProofs3.v
theories/BehindProofs4.v
theories/BehindProofs5.v
theories/Prop_Behind.v
