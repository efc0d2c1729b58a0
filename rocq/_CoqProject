-Q theories Verif
theories/Base.v
theories/WireModel.v
theories/Values.v
theories/MessageModel.v
theories/WireSpec.v
theories/WireProofs.v
theories/MessageSpec.v
theories/MessageProofs.v
theories/SerializeProofs.v
theories/ReaderProofs.v
theories/MessageFacts.v
theories/WireFacts.v
theories/RunFacts.v
theories/CycleSpec.v
theories/CycleProofs.v
theories/ReaderSpec.v
theories/ReaderCalm.v
theories/ReaderHostile.v
theories/PropFacts.v
theories/TagFacts.v
theories/Examples.v
theories/PropertiesWire.v
theories/PropertiesMessage.v
theories/PropertiesReader.v
theories/ObjectModel.v
theories/ObjectSpec.v
theories/ObjectProofs.v
theories/ObjectTotal.v
theories/AssignProofs.v
theories/ObjectFacts.v
theories/ObjectClash.v
theories/ObjectShare.v
theories/TypedProofs.v
theories/PropertiesObject.v
theories/GetterSpec.v
theories/GetterProofs.v
theories/PropertiesGetter.v
theories/FrameSpec.v
theories/FrameModel.v
theories/FrameProofs.v
theories/FrameCuts.v
theories/PropertiesFrame.v
theories/CallModel.v
theories/PropertiesCall.v
theories/StreamModel.v
theories/StreamProofs.v
theories/PropertiesStream.v
theories/QuickModel.v
theories/QuickProofs.v
theories/PropertiesQuick.v
theories/RegistryModel.v
theories/RegistryProofs.v
theories/PropertiesRegistry.v
theories/JsonSpec.v
theories/JsonModel.v
theories/JsonProofs.v
theories/JsonUnique.v
theories/PropertiesJson.v
theories/JsonReadModel.v
theories/JsonReadSpec.v
theories/JsonReadProofs.v
theories/JsonScan.v
theories/JsonReadFacts.v
theories/PropertiesJsonRead.v
theories/GenModel.v
theories/GenSpec.v
theories/GenStrings.v
theories/GenFields.v
theories/GenOutput.v
theories/GenMulti.v
theories/PropertiesGenerator.v
theories/OwnerModel.v
theories/OwnerSpec.v
theories/OwnerProofs.v
theories/PropertiesOwner.v
theories/ListModel.v
theories/ListSpec.v
theories/ListProofs.v
theories/PropertiesList.v
theories/QtTypesModel.v
theories/QtDateProofs.v
theories/QtTypesSpec.v
theories/QtTypesProofs.v
theories/PropertiesQtTypes.v
theories/GenTypesModel.v
theories/GenTypesSpec.v
theories/GenTypesProofs.v
theories/GenTypesNames.v
theories/GenTypesClasses.v
theories/PropertiesGenTypes.v
theories/PropertiesGenClasses.v
theories/GenLookupModel.v
theories/GenLookupSpec.v
theories/GenLookupProofs.v
theories/PropertiesGenLookup.v
theories/ReplyModel.v
theories/ReplySpec.v
theories/ReplyProofs.v
theories/PropertiesReply.v
theories/RequestModel.v
theories/PropertiesRequest.v
theories/BuildModel.v
theories/BuildSpec.v
theories/BuildProofs.v
theories/BuildScan.v
theories/BuildFiles.v
theories/PropertiesBuild.v
theories/NativeModel.v
theories/NativeSpec.v
theories/NativeProofs.v
theories/PropertiesNative.v
theories/GenClassModel.v
theories/GenClassSpec.v
theories/GenClassProofs.v
theories/GenClassMembers.v
theories/GenClassBodies.v
theories/GenClassMeta.v
theories/GenClassNames.v
theories/PropertiesGenMembers.v
theories/GenBodyModel.v
theories/GenBodySpec.v
theories/GenBodyProofs.v
theories/GenBodyCopy.v
theories/GenBodyMove.v
theories/GenBodySelf.v
theories/GenBodyFacts.v
theories/PropertiesGenBody.v
theories/BlockModel.v
theories/BlockSpec.v
theories/BlockProofs.v
theories/BlockRun.v
theories/BlockSafe.v
theories/BlockEnds.v
theories/BlockTerm.v
theories/BlockNever.v
theories/BlockMore.v
theories/PropertiesBlock.v
theories/AsyncModel.v
theories/AsyncSpec.v
theories/AsyncProofs.v
theories/AsyncLog.v
theories/AsyncMore.v
theories/AsyncProgress.v
theories/PropertiesAsync.v
theories/TextSpec.v
theories/TextModel.v
theories/TextProofs.v
theories/TextMessageSpec.v
theories/TextMessageProofs.v
theories/PropertiesText.v
theories/CommentSpec.v
theories/CommentModel.v
theories/CommentProofs.v
theories/PropertiesComment.v
theories/JsonDigits.v
theories/PropertiesJsonDigits.v
theories/NumberSpec.v
theories/NumberModel.v
theories/NumberProofs.v
theories/PropertiesNumber.v
theories/EvolveSpec.v
theories/EvolveProofs.v
theories/PropertiesEvolve.v
theories/StackModel.v
theories/StackSpec.v
theories/StackProofs.v
theories/PropertiesStack.v
theories/QmlTypesModel.v
theories/QmlTypesSpec.v
theories/QmlTypesProofs.v
theories/PropertiesQmlTypes.v
theories/ExactSpec.v
theories/ExactProofs.v
theories/ExactWrite.v
theories/ExactFacts.v
theories/PropertiesExact.v
theories/ClientModel.v
theories/ClientSpec.v
theories/ClientProofs.v
theories/ClientIncludes.v
theories/ClientQuick.v
theories/PropertiesClient.v
theories/QuickReturn.v
theories/PropertiesReturn.v
theories/StatusModel.v
theories/StatusSpec.v
theories/PropertiesStatus.v
theories/JsonTyped.v
theories/JsonRelay.v
theories/PropertiesRelay.v
theories/LinkModel.v
theories/LinkSpec.v
theories/LinkProofs.v
theories/PropertiesLink.v
theories/LinkJsonModel.v
theories/LinkJsonSpec.v
theories/LinkJsonProofs.v
theories/PropertiesLinkJson.v
theories/EvolveJsonSpec.v
theories/EvolveJsonProofs.v
theories/PropertiesEvolveJson.v
theories/WholeModel.v
theories/WholeSpec.v
theories/PropertiesWhole.v
theories/PropertiesServer.v
theories/QtFieldsModel.v
theories/QtFieldsSpec.v
theories/QtFieldsProofs.v
theories/QtFieldsTrack.v
theories/PropertiesQtFields.v
theories/LinkQtModel.v
theories/LinkQtSpec.v
theories/LinkQtProofs.v
theories/PropertiesLinkQt.v
theories/UpgradeSpec.v
theories/PropertiesUpgrade.v
theories/ErrorSpec.v
theories/ErrorProofs.v
theories/PropertiesErrors.v
theories/NativeCallModel.v
theories/NativeCallSpec.v
theories/PropertiesNativeCall.v
theories/PropertiesNativeVersions.v
theories/IterModel.v
theories/IterSpec.v
theories/PropertiesIter.v
theories/QtJsonModel.v
theories/QtJsonSpec.v
theories/QtJsonProofs.v
theories/QtJsonBack.v
theories/QtJsonRects.v
theories/PropertiesQtJson.v
theories/QtJsonOrder.v
theories/PropertiesQtJsonLink.v
theories/LinkQtJsonModel.v
theories/LinkQtJsonSpec.v
theories/LinkQtJsonProofs.v
theories/PropertiesLinkQtJson.v
theories/QtJsonFacts.v
