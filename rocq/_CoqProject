-Q theories Verif
theories/AccountantModel.v
theories/AddressIndexModel.v
theories/AddressIndexProofs.v
theories/AddressModel.v
theories/AddressProofs.v
theories/AgingModel.v
theories/AgingProofs.v
theories/AlgebraProofs.v
theories/ArchiveModel.v
theories/ArchiveProofs.v
theories/ArithIndexModel.v
theories/ArithIndexProofs.v
theories/ArrowModel.v
theories/ArrowProofs.v
theories/Base64Model.v
theories/Base64Proofs.v
theories/BitmapAlgoModel.v
theories/BitmapAlgoProofs.v
theories/BitmapOps.v
theories/BitmapSelectProofs.v
theories/BitvectorModel.v
theories/BitvectorProofs.v
theories/BloomModel.v
theories/BloomProofs.v
theories/CalendarModel.v
theories/CalendarProofs.v
theories/CalendarTextProofs.v
theories/CoderModel.v
theories/CoderProofs.v
theories/ConfigModel.v
theories/ConfigProofs.v
theories/CsvModel.v
theories/CsvProofs.v
theories/CsvWriterModel.v
theories/CsvWriterProofs.v
theories/DataModel.v
theories/DataProofs.v
theories/DiskMonitorModel.v
theories/DiskMonitorProofs.v
theories/EscapeModel.v
theories/EscapeProofs.v
theories/EvaluatorModel.v
theories/EvaluatorProofs.v
theories/EwahModel.v
theories/EwahProofs.v
theories/ExplorerModel.v
theories/ExplorerProofs.v
theories/ExporterModel.v
theories/ExporterProofs.v
theories/ExpressionModel.v
theories/ExpressionProofs.v
theories/ExtractorProofs.v
theories/FileModel.v
theories/FileProofs.v
theories/FloatIntProofs.v
theories/FloatProofs.v
theories/HashIndexModel.v
theories/HashIndexProofs.v
theories/ImporterModel.v
theories/ImporterProofs.v
theories/IndexModel.v
theories/IndexMore.v
theories/IndexProofs.v
theories/JsonModel.v
theories/JsonProofs.v
theories/JsonReaderModel.v
theories/JsonReaderProofs.v
theories/LineModel.v
theories/LineProofs.v
theories/ListIndexModel.v
theories/LiteralModel.v
theories/LiteralProofs.v
theories/LocalStoreModel.v
theories/LocalStoreProofs.v
theories/LruModel.v
theories/LruProofs.v
theories/MetaIndexModel.v
theories/MetaIndexProofs.v
theories/MetaLookupProofs.v
theories/MsgpackModel.v
theories/MsgpackProofs.v
theories/MultiLevelProofs.v
theories/NBits.v
theories/NodeModel.v
theories/OperatorModel.v
theories/OrderModel.v
theories/OrderProofs.v
theories/PcapModel.v
theories/PcapProofs.v
theories/PidFileModel.v
theories/PivoterModel.v
theories/PivoterProofs.v
theories/PropsAccountant.v
theories/PropsAddress.v
theories/PropsAddressIndex.v
theories/PropsAging.v
theories/PropsAlgebra.v
theories/PropsArchive.v
theories/PropsArrow.v
theories/PropsBase64.v
theories/PropsBitmapOps.v
theories/PropsBitvector.v
theories/PropsBloom.v
theories/PropsCalendar.v
theories/PropsCoder.v
theories/PropsConfig.v
theories/PropsCsv.v
theories/PropsCsvWriter.v
theories/PropsData.v
theories/PropsDiskMonitor.v
theories/PropsEscape.v
theories/PropsEvaluator.v
theories/PropsEwah.v
theories/PropsExplorer.v
theories/PropsExporter.v
theories/PropsExpression.v
theories/PropsExtractor.v
theories/PropsFile.v
theories/PropsHashIndex.v
theories/PropsImporter.v
theories/PropsIndex.v
theories/PropsJson.v
theories/PropsJsonReader.v
theories/PropsLine.v
theories/PropsListIndex.v
theories/PropsLiteral.v
theories/PropsLocalStore.v
theories/PropsLru.v
theories/PropsMetaIndex.v
theories/PropsMsgpack.v
theories/PropsNode.v
theories/PropsPartitions.v
theories/PropsPcap.v
theories/PropsPidFile.v
theories/PropsPivoter.v
theories/PropsQuery.v
theories/PropsRangeMap.v
theories/PropsRecord.v
theories/PropsSchema.v
theories/PropsSegmentStore.v
theories/PropsSetOps.v
theories/PropsSigma.v
theories/PropsSink.v
theories/PropsStringIndex.v
theories/PropsSynopsis.v
theories/PropsSyntax.v
theories/PropsSyslog.v
theories/PropsTableSlice.v
theories/PropsTaxonomy.v
theories/PropsTerminator.v
theories/PropsTransform.v
theories/PropsType.v
theories/PropsTypeRegistry.v
theories/PropsVarbyte.v
theories/PropsWah.v
theories/PropsZeek.v
theories/QueryLive.v
theories/QueryModel.v
theories/QueryProofs.v
theories/RangeMapModel.v
theories/RangeMapProofs.v
theories/RecordProofs.v
theories/SchemaModel.v
theories/SchemaProofs.v
theories/SchemaTextProofs.v
theories/SegmentStoreInvariant.v
theories/SegmentStoreModel.v
theories/SegmentStoreProofs.v
theories/SelProofs.v
theories/SetOpsModel.v
theories/SetOpsProofs.v
theories/SigmaModel.v
theories/SigmaProofs.v
theories/SinkModel.v
theories/StringIndexModel.v
theories/StringIndexProofs.v
theories/SubnetIndexProofs.v
theories/SynopsisModel.v
theories/SynopsisProofs.v
theories/SyntaxModel.v
theories/SyntaxProofs.v
theories/SyslogModel.v
theories/SyslogProofs.v
theories/TableSliceModel.v
theories/TableSliceProofs.v
theories/TailorProofs.v
theories/TaxonomyModel.v
theories/TaxonomyProofs.v
theories/TerminatorModel.v
theories/TerminatorProofs.v
theories/TransformModel.v
theories/TransformProofs.v
theories/TypeModel.v
theories/TypeProofs.v
theories/TypeRegistryModel.v
theories/TypeRegistryProofs.v
theories/TypeTextProofs.v
theories/ValueIndexModel.v
theories/ValueIndexProofs.v
theories/VarbyteModel.v
theories/VarbyteProofs.v
theories/WahModel.v
theories/WahProofs.v
theories/WordModel.v
theories/WordProofs.v
theories/ZeekModel.v
theories/ZeekProofs.v
theories/ZeekWriterProofs.v
